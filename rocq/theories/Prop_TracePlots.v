(** C113: corner and trace plots (plot/misc.py). *)
From Coq Require Import Ascii String ZArith.
From Verif Require Import RBase Base Namespace NamespaceProofs CompileProofs HelperData HelperDataProofs Data DataProofs Results ResultsProofs Summary SummaryProofs Report Prop_Report Colors Prop_Colors TracePlots.
From Coq Require Import List Lra Psatz Lia.
Import ListNotations.
Open Scope list_scope.
Open Scope R_scope.

(** ** words of the specification *)
(** the numbers of a title: the samples split as they must around the three values *)
Definition shares (l : list R) (lo mid hi : R) : Prop :=
  lo <= mid <= hi /\
  (forall k, count (fun y => y <= lo) l k -> 0.15865 * INR (length l - 1) < INR k) /\
  (forall k, count (fun y => lo <= y) l k -> (1 - 0.15865) * INR (length l - 1) < INR k) /\
  (forall k, count (fun y => y <= mid) l k -> 0.5 * INR (length l - 1) < INR k) /\
  (forall k, count (fun y => mid <= y) l k -> 0.5 * INR (length l - 1) < INR k) /\
  (forall k, count (fun y => y <= hi) l k -> 0.84135 * INR (length l - 1) < INR k) /\
  (forall k, count (fun y => hi <= y) l k -> (1 - 0.84135) * INR (length l - 1) < INR k).
(** the samples of a parameter *)
Definition has (p : post) (n : str) (l : list R) : Prop := exists chains, get p n = Some chains /\ l = concat chains.

Lemma bind_inv {A B} (x : res A) (f : A -> res B) y : bind x f = Ok y -> exists a, x = Ok a /\ f a = Ok y.
Proof. destruct x; cbn; [eauto|discriminate]. Qed.
Lemma nth_error_both {A B} (l : list A) : forall (m : list B) i a b, nth_error l i = Some a -> nth_error m i = Some b -> nth_error (combine l m) i = Some (a, b).
Proof. induction l as [|x l IH]; intros [|y m] [|i] a b E F; try discriminate; cbn in *; [congruence|now apply IH]. Qed.
Lemma shares_of l lo mid hi : quantile l 0.15865 = Ok lo -> quantile l 0.5 = Ok mid -> quantile l 0.84135 = Ok hi -> shares l lo mid hi.
Proof.
  intros A B C. split; [split; [exact (quantile_mono _ _ _ _ _ A B ltac:(lra))|exact (quantile_mono _ _ _ _ _ B C ltac:(lra))]|].
  split; [intros k; apply quantile_below, A|]. split; [intros k; apply quantile_above, A|].
  split; [intros k; apply quantile_below, B|]. split; [|split; [intros k; apply quantile_below, C|intros k; apply quantile_above, C]].
  intros k K. replace 0.5 with (1 - 0.5) by lra. exact (quantile_above _ _ _ _ B K).
Qed.
Lemma all_in (l m : list str) : forallb (fun n => str_in n m) l = true <-> (forall n, In n l -> In n m).
Proof. rewrite forallb_forall. split; intros H n Hn; [apply str_in_spec, H, Hn|apply str_in_spec, H, Hn]. Qed.
Lemma has_in p n : In n (map fst p) <-> exists l, has p n l.
Proof.
  unfold has. split.
  - intros H. destruct (get p n) as [c|] eqn:E; [eauto|]. exfalso. induction p as [|[k v] p IH]; [destruct H|]. cbn [get] in E. destruct (str_eqb_spec n k) as [->|N]; [discriminate|].
    apply IH; [|exact E]. destruct H as [H|H]; [cbn in H; congruence|exact H].
  - intros (l & c & E & _). apply get_in in E. exact (in_map fst _ _ E).
Qed.
Lemma samples_has p n l : has p n l -> samples p n = l.
Proof. intros (c & E & ->). unfold samples. now rewrite E. Qed.

Section Corner.
Variables (p : post) (coords : list str) (params titles labels : texts) (levels : numbers) (color : option str) (range : option (list (option (R * R)))).
Let names := given params (map fst p).
Let plotted := plot_corner p coords params titles labels levels color range.

Lemma corner_inv c : plotted = Ok c -> 
  (forall n, In n names -> In n (map fst p)) /\ length (given titles names) = length names /\ length (given labels names) = length names /\
  co_names c = names /\ co_labels c = given labels names /\
  mapE (fun '(t, n) =>
    bind (quantile (samples p n) 0.5) (fun mid =>
    bind (quantile (samples p n) 0.15865) (fun lo =>
    bind (quantile (samples p n) 0.84135) (fun hi =>
    bind (report_interval mid lo hi 2 1 2) (fun r => Ok (t, r)))))) (combine (given titles names) names) = Ok (co_titles c) /\
  match levels with NoNumbers => co_levels c = [0.683; 0.95] | Numbers l => co_levels c = l | OneNumber _ => False end /\
  get_contour_colors (match color with None => s2l "#205295" | Some t => t end) (Z.of_nat (length (co_levels c))) 0.8 2 0.72 = Ok (co_lines c, co_areas c) /\
  (exists r, co_areas c = co_points c :: r) /\
  co_range c = match range with None => ranges p names | r => r end.
Proof.
  intros H. unfold plotted, plot_corner in H. cbv zeta in H. fold names in H.
  destruct (forallb (fun n => str_in n (map fst p) || str_in n coords)%bool names); [|discriminate]. cbn [negb] in H.
  destruct (forallb (fun n => str_in n (map fst p)) names) eqn:E2; [|discriminate]. cbn [negb] in H. rewrite all_in in E2.
  destruct (Nat.eqb_spec (length (given titles names)) (length names)) as [E3|]; [|discriminate]. cbn [negb] in H.
  destruct (Nat.eqb_spec (length (given labels names)) (length names)) as [E4|]; [|discriminate]. cbn [negb] in H.
  apply bind_inv in H as (shown & E5 & H). apply bind_inv in H as (lv & E6 & H). apply bind_inv in H as ([lines areas] & E7 & H).
  destruct areas as [|a areas]; [discriminate|]. assert (E : c = {| co_names := names; co_titles := shown; co_labels := given labels names; co_levels := lv;
    co_lines := lines; co_areas := a :: areas; co_points := a; co_range := match range with None => ranges p names | r => r end |}) by congruence.
  subst c. cbn [co_names co_titles co_labels co_levels co_lines co_areas co_points co_range].
  split; [exact E2|]. split; [exact E3|]. split; [exact E4|]. split; [reflexivity|]. split; [reflexivity|]. split; [exact E5|].
  split; [destruct levels; [congruence|discriminate|congruence]|]. split; [exact E7|]. split; [eauto|reflexivity].
Qed.

(** every panel of the diagonal carries the title and the label given for its parameter, and the numbers of its own samples *)
Theorem C113_corner_titles : forall c, plotted = Ok c ->
  co_names c = names /\ length (co_titles c) = length names /\ length (co_labels c) = length names /\ co_labels c = given labels names /\
  forall i n, nth_error names i = Some n -> exists l lo mid hi t r, has p n l /\ shares l lo mid hi /\
    nth_error (given titles names) i = Some t /\ report_interval mid lo hi 2 1 2 = Ok r /\ nth_error (co_titles c) i = Some (t, r).
Proof.
  intros c H. destruct (corner_inv c H) as (K & L1 & L2 & N & Lb & M & _). split; [exact N|].
  pose proof (mapE_inv _ _ _ M) as F. 
  assert (Lt : length (co_titles c) = length names). { rewrite (mapE_len _ _ _ M), combine_length, L1. lia. }
  split; [exact Lt|]. split; [now rewrite Lb|]. split; [exact Lb|]. intros i n Hi.
  assert (Hn : In n names) by (now apply nth_error_In in Hi). apply K, has_in in Hn as (l & Hl).
  assert (Li : (i < length names)%nat) by (apply nth_error_Some; congruence).
  destruct (nth_error (given titles names) i) as [t|] eqn:Et; [|apply nth_error_None in Et; lia].
  destruct (nth_error (co_titles c) i) as [x|] eqn:Ex; [|apply nth_error_None in Ex; lia].
  assert (Ec : nth_error (combine (given titles names) names) i = Some (t, n)).
  { now apply nth_error_both. }
  assert (Eq : (fun '(t, n) =>
    bind (quantile (samples p n) 0.5) (fun mid =>
    bind (quantile (samples p n) 0.15865) (fun lo =>
    bind (quantile (samples p n) 0.84135) (fun hi =>
    bind (report_interval mid lo hi 2 1 2) (fun r => Ok (t, r)))))) (t, n) = Ok x).
  { clear - F Ec Ex. revert i Ec Ex. induction F as [|u v l m E F IH]; intros [|i] Ec Ex; try discriminate; cbn [nth_error] in *; [|now apply (IH i)].
    injection Ec as ->. injection Ex as ->. exact E. }
  cbn beta iota in Eq. rewrite (samples_has _ _ _ Hl) in Eq. apply bind_inv in Eq as (mid & Q1 & Eq). apply bind_inv in Eq as (lo & Q2 & Eq).
  apply bind_inv in Eq as (hi & Q3 & Eq). apply bind_inv in Eq as (r & Q4 & Eq). injection Eq as <-.
  exists l, lo, mid, hi, t, r. split; [exact Hl|]. split; [now apply shares_of|]. split; [reflexivity|]. split; [exact Q4|reflexivity].
Qed.
Print Assumptions C113_corner_titles.

(** as many colours as levels, a line is never brighter than its area, the points have the brightest colour; without levels
    they are 68.3% and 95% *)
Theorem C113_corner_levels : forall c, plotted = Ok c ->
  (levels = NoNumbers -> co_levels c = [0.683; 0.95]) /\ (forall l, levels = Numbers l -> co_levels c = l) /\ co_levels c <> [] /\
  length (co_lines c) = length (co_levels c) /\ length (co_areas c) = length (co_levels c) /\ nth 0 (co_areas c) [] = co_points c /\
  (forall t, t = match color with None => s2l "#205295" | Some t => t end ->
    (exists rgb, text_of t rgb) /\
    (valid t -> (forall i, (i < length (co_levels c))%nat -> not_brighter (nth i (co_lines c) []) (nth i (co_areas c) []) /\ not_brighter (nth i (co_areas c) []) (co_points c)))).
Proof.
  intros c H. destruct (corner_inv c H) as (_ & _ & _ & _ & _ & _ & Lv & Co & (r & Ar) & _).
  pose proof Co as Co'. unfold get_contour_colors in Co'. apply bind_inv in Co' as (areas & G1 & Co'). apply bind_inv in Co' as (lines & G2 & Co').
  assert (areas = co_areas c) by congruence. assert (lines = co_lines c) by congruence. subst areas lines.
  destruct (C112_gradient _ _ _ _ _ G1) as (_ & _ & L1 & B1 & _ & _ & O1). destruct (C112_gradient _ _ _ _ _ G2) as (_ & _ & L2 & _). rewrite Nat2Z.id in L1, L2.
  split; [intros ->; exact Lv|]. split; [intros l ->; exact Lv|]. assert (Ne : co_levels c <> []). { intros E. rewrite E, Ar in L1. discriminate. }
  split; [exact Ne|]. split; [exact L2|]. split; [exact L1|]. assert (P0 : nth 0 (co_areas c) [] = co_points c) by (now rewrite Ar). split; [exact P0|].
  intros t ->. split.
  - refine (proj2 (proj1 (C112_scale_ok_iff _ 2) _)). exists (nth 0 (co_areas c) []). apply B1. rewrite Ar. discriminate.
  - intros V i Hi. destruct (C112_contours _ _ _ _ _ _ _ V Co ltac:(lra)) as (_ & _ & D). split; [apply D; lia|]. rewrite <- P0. apply O1; [exact V|lia].
Qed.
Print Assumptions C113_corner_levels.

(** the ranges of the axes: those given; else none, unless a plotted parameter is constant: then all others have the range
    of their samples *)
Theorem C113_corner_range : forall c, plotted = Ok c ->
  (forall r, range = Some r -> co_range c = Some r) /\
  (range = None ->
   let constant n := exists l x, has p n l /\ forall y, In y l -> y = x in
   (co_range c = None <-> forall n, In n names -> ~ constant n) /\
   (forall rs, co_range c = Some rs -> length rs = length names /\ forall i n, nth_error names i = Some n ->
     (constant n /\ nth_error rs i = Some None) \/
     exists l lo hi, has p n l /\ nth_error rs i = Some (Some (lo, hi)) /\ lo < hi /\ In lo l /\ In hi l /\ forall y, In y l -> lo <= y <= hi)).
Proof.
  intros c H. destruct (corner_inv c H) as (K & L1 & _ & _ & _ & M & _ & _ & _ & Rg). rewrite Rg. split; [intros r Er; rewrite Er; reflexivity|]. intros Er constant. rewrite Er.
  assert (Ne : forall n l, In n names -> has p n l -> l <> []).
  { intros n l Hn Hl ->. apply In_nth_error in Hn as (i & Hi). destruct (C113_corner_titles c H) as (_ & _ & _ & _ & T). destruct (T i n Hi) as (l & lo & mid & hi & t & r & Hl' & _).
    apply mapE_inv in M. assert (Q : exists x, quantile (samples p n) 0.5 = Ok x).
    { assert (Li : (i < length names)%nat) by (apply nth_error_Some; congruence). destruct (nth_error (given titles names) i) as [t'|] eqn:Et; [|apply nth_error_None in Et; lia].
      assert (Ec : nth_error (combine (given titles names) names) i = Some (t', n)).
      { now apply nth_error_both. }
      apply nth_error_In in Ec. destruct (F2_in_l _ _ _ _ M Ec) as (y & _ & Hy). cbn beta iota in Hy. apply bind_inv in Hy as (mid' & Q & _). eauto. }
    rewrite (samples_has _ _ _ Hl) in Q. destruct Q as (x & Q). discriminate. }
  assert (Cst : forall n, In n names -> Reqb (fst (extremes (samples p n))) (snd (extremes (samples p n))) = true <-> constant n).
  { intros n Hn. destruct (proj1 (has_in p n) (K n Hn)) as (l & Hl). rewrite (samples_has _ _ _ Hl). pose proof (Ne n l Hn Hl) as N. cbn [extremes fst snd].
    destruct (lmin_spec l N) as (A1 & A2). destruct (lmax_spec l N) as (B1 & B2). destruct (Reqb_spec (lmin l) (lmax l)) as [E|E].
    - split; [|reflexivity]. intros _. exists l, (lmin l). split; [exact Hl|]. intros y Hy. specialize (A2 y Hy). specialize (B2 y Hy). lra.
    - split; [discriminate|]. intros (l' & x & Hl' & C). assert (l' = l) by (rewrite <- (samples_has _ _ _ Hl), <- (samples_has _ _ _ Hl'); reflexivity). subst l'.
      exfalso. apply E. rewrite (C _ A1), (C _ B1). reflexivity. }
  unfold ranges. cbv zeta. destruct (existsb (fun n => Reqb (fst (extremes (samples p n))) (snd (extremes (samples p n)))) names) eqn:X.
  - split.
    + split; [discriminate|]. intros A. apply existsb_exists in X as (n & Hn & X). apply (Cst n Hn) in X. destruct (A n Hn X).
    + intros rs E. assert (rs = map (fun n => if Reqb (fst (extremes (samples p n))) (snd (extremes (samples p n))) then None else Some (extremes (samples p n))) names) by congruence. subst rs.
      split; [apply map_length|]. intros i n Hi. assert (Hn : In n names) by (now apply nth_error_In in Hi).
      pose proof (map_nth_error (fun n => if Reqb (fst (extremes (samples p n))) (snd (extremes (samples p n))) then None else Some (extremes (samples p n))) i names Hi) as Y.
      cbv beta in Y. destruct (Reqb (fst (extremes (samples p n))) (snd (extremes (samples p n)))) eqn:Q.
      * left. split; [now apply (Cst n Hn)|exact Y].
      * right. destruct (proj1 (has_in p n) (K n Hn)) as (l & Hl). rewrite (samples_has _ _ _ Hl) in Y, Q. pose proof (Ne n l Hn Hl) as N. cbn [extremes fst snd] in Y, Q.
        destruct (lmin_spec l N) as (A1 & A2). destruct (lmax_spec l N) as (B1 & B2). exists l, (lmin l), (lmax l). split; [exact Hl|]. split; [exact Y|].
        destruct (Reqb_spec (lmin l) (lmax l)); [discriminate|]. pose proof (A2 _ B1). split; [lra|]. split; [exact A1|]. split; [exact B1|]. intros y Hy. split; [now apply A2|now apply B2].
  - split; [|discriminate]. split; [|reflexivity]. intros _ n Hn C. apply (Cst n Hn) in C. apply Bool.not_true_iff_false in X. apply X. apply existsb_exists. eauto.
Qed.
Print Assumptions C113_corner_range.

(** when the plot can be made *)
Theorem C113_corner_ok : (forall n, In n names -> exists l mid, has p n l /\ l <> [] /\ quantile l 0.5 = Ok mid /\ mid <> 0) ->
  length (given titles names) = length names -> length (given labels names) = length names ->
  (levels = NoNumbers \/ exists l, levels = Numbers l /\ l <> []) ->
  (forall t, color = Some t -> exists rgb, text_of t rgb) -> exists c, plotted = Ok c.
Proof.
  intros K L1 L2 Lv Cl. unfold plotted, plot_corner. cbv zeta. fold names.
  assert (In1 : forallb (fun n => str_in n (map fst p)) names = true).
  { apply all_in. intros n Hn. destruct (K n Hn) as (l & _ & Hl & _). apply has_in. eauto. }
  assert (In2 : forallb (fun n => str_in n (map fst p) || str_in n coords)%bool names = true).
  { apply forallb_forall. intros n Hn. rewrite forallb_forall in In1. now rewrite (In1 n Hn). }
  rewrite In2, In1. cbn [negb]. rewrite L1, L2, Nat.eqb_refl. cbn [negb].
  assert (T : exists shown, mapE (fun '(t, n) =>
    bind (quantile (samples p n) 0.5) (fun mid =>
    bind (quantile (samples p n) 0.15865) (fun lo =>
    bind (quantile (samples p n) 0.84135) (fun hi =>
    bind (report_interval mid lo hi 2 1 2) (fun r => Ok (t, r)))))) (combine (given titles names) names) = Ok shown).
  { assert (A : forall x, In x (combine (given titles names) names) -> exists y, (fun '(t, n) =>
    bind (quantile (samples p n) 0.5) (fun mid =>
    bind (quantile (samples p n) 0.15865) (fun lo =>
    bind (quantile (samples p n) 0.84135) (fun hi =>
    bind (report_interval mid lo hi 2 1 2) (fun r => Ok (t, r)))))) x = Ok y).
    { intros [t n] Hx. apply in_combine_r in Hx. destruct (K n Hx) as (l & mid & Hl & Ne & Q & Z). rewrite (samples_has _ _ _ Hl), Q. cbn [bind].
      destruct (quantile_defined l 0.15865 Ne) as (lo & ->); [lra|]. destruct (quantile_defined l 0.84135 Ne) as (hi & ->); [lra|]. cbn [bind].
      destruct (C80_defined mid lo hi 2 1 2) as (r & ->); try lia; [exact Z|]. cbn [bind]. eauto. }
    clear - A. induction (combine (given titles names) names) as [|x l IH]; [exists []; reflexivity|]. destruct (A x ltac:(now left)) as (y & Ey).
    destruct IH as (ys & Eys); [intros z Hz; apply A; now right|]. exists (y :: ys). cbn [mapE]. rewrite Ey. cbn [bind]. rewrite Eys. reflexivity. }
  destruct T as (shown & ->). cbn [bind].
  assert (Lv' : exists l, match levels with NoNumbers => Ok [0.683; 0.95] | Numbers l => Ok l | OneNumber _ => Err TypeError end = Ok l /\ l <> []).
  { destruct Lv as [-> |(l & -> & N)]; eexists; (split; [reflexivity|]); [discriminate|exact N]. }
  destruct Lv' as (l & -> & Nl). cbn [bind]. set (t := match color with None => s2l "#205295" | Some t => t end).
  assert (V : exists rgb, text_of t rgb). { unfold t. destruct color; [now apply Cl|]. exists (32, 82, 149)%Z. reflexivity. }
  destruct V as (rgb & V). destruct (C112_gradient_ok t (Z.of_nat (length l)) 0.8 2 rgb V) as (a & Ea); [split; lra|lia|].
  destruct (C112_gradient_ok t (Z.of_nat (length l)) (0.72 * 0.8) (0.72 * 2) rgb V) as (b & Eb); [split; lra|lia|].
  unfold get_contour_colors. rewrite Ea. cbn [bind]. rewrite Eb. cbn [bind].
  destruct (C112_gradient _ _ _ _ _ Ea) as (_ & _ & La & _). rewrite Nat2Z.id in La. destruct a as [|a0 a]; [destruct l; [congruence|discriminate]|]. eauto.
Qed.
Print Assumptions C113_corner_ok.

(** what is refused although the documentation allows it, and how *)
Theorem C113_corner_unknown_refuted : forall n, In n names -> ~ In n (map fst p) ->
  (~ In n coords -> plotted = Err KeyError) /\ ((forall m, In m names -> In m (map fst p) \/ In m coords) -> plotted = Err ValueError).
Proof.
  intros n Hn Nn. unfold plotted, plot_corner. cbv zeta. fold names. split.
  - intros Nc. destruct (forallb (fun n => str_in n (map fst p) || str_in n coords)%bool names) eqn:E; [|reflexivity]. exfalso.
    rewrite forallb_forall in E. specialize (E n Hn). apply Bool.orb_prop in E as [E|E]; apply str_in_spec in E; tauto.
  - intros A. replace (forallb (fun n => str_in n (map fst p) || str_in n coords)%bool names) with true.
    + cbn [negb]. destruct (forallb (fun n => str_in n (map fst p)) names) eqn:E; [|reflexivity]. exfalso. rewrite all_in in E. exact (Nn (E n Hn)).
    + symmetry. apply forallb_forall. intros m Hm. apply Bool.orb_true_iff. destruct (A m Hm); [left|right]; now apply str_in_spec.
Qed.
Print Assumptions C113_corner_unknown_refuted.
Theorem C113_corner_one_level_refuted : forall x, levels = OneNumber x -> forall c, plotted <> Ok c.
Proof. intros x E c H. pose proof (corner_inv c H) as I. rewrite E in I. tauto. Qed.
Theorem C113_corner_zero_refuted : forall n l, In n names -> has p n l -> quantile l 0.5 = Ok 0 -> forall c, plotted <> Ok c.
Proof.
  intros n l Hn Hl Q c H. apply In_nth_error in Hn as (i & Hi). pose proof (corner_inv c H) as (_ & L1 & _ & _ & _ & M & _). apply mapE_inv in M.
  assert (Li : (i < length names)%nat) by (apply nth_error_Some; congruence). destruct (nth_error (given titles names) i) as [t'|] eqn:Et; [|apply nth_error_None in Et; lia].
  assert (Ec : nth_error (combine (given titles names) names) i = Some (t', n)).
  { now apply nth_error_both. }
  apply nth_error_In in Ec. destruct (F2_in_l _ _ _ _ M Ec) as (y & _ & Hy). cbn beta iota in Hy. rewrite (samples_has _ _ _ Hl), Q in Hy. cbn [bind] in Hy.
  apply bind_inv in Hy as (lo & _ & Hy). apply bind_inv in Hy as (hi & _ & Hy). destruct (C80_zero_refuted lo hi 2 1 2) as (e & E). rewrite E in Hy. discriminate.
Qed.
Theorem C113_corner_count : (forall n, In n names -> In n (map fst p)) ->
  (length (given titles names) <> length names \/ length (given labels names) <> length names) -> plotted = Err AssertionError.
Proof.
  intros A B. unfold plotted, plot_corner. cbv zeta. fold names.
  assert (In1 : forallb (fun n => str_in n (map fst p)) names = true) by now apply all_in.
  assert (In2 : forallb (fun n => str_in n (map fst p) || str_in n coords)%bool names = true).
  { apply forallb_forall. intros n Hn. rewrite forallb_forall in In1. now rewrite (In1 n Hn). }
  rewrite In2, In1. cbn [negb]. destruct (Nat.eqb_spec (length (given titles names)) (length names)); [|reflexivity]. destruct (Nat.eqb_spec (length (given labels names)) (length names)); [tauto|reflexivity].
Qed.
Print Assumptions C113_corner_one_level_refuted.
Print Assumptions C113_corner_zero_refuted.
Print Assumptions C113_corner_count.
End Corner.

(** ** traces *)
Lemma mapiE_nth {A B} (f : nat -> A -> res B) l : forall i r, mapiE f i l = Ok r ->
  length r = length l /\ forall j a, nth_error l j = Some a -> exists b, nth_error r j = Some b /\ f (i + j)%nat a = Ok b.
Proof.
  induction l as [|a l IH]; intros i r H; cbn [mapiE] in H.
  - injection H as <-. split; [reflexivity|]. intros [|j] a E; discriminate.
  - apply bind_inv in H as (b & E & H). apply bind_inv in H as (bs & E' & H). injection H as <-. destruct (IH _ _ E') as (L & N). split; [cbn; now rewrite L|].
    intros [|j] x Ej; cbn [nth_error] in *.
    + injection Ej as <-. exists b. rewrite Nat.add_0_r. auto.
    + destruct (N j x Ej) as (y & Y1 & Y2). exists y. rewrite Nat.add_succ_r. auto.
Qed.
Lemma mapiE_ok {A B} (f : nat -> A -> res B) l : forall i, (forall j a, nth_error l j = Some a -> exists b, f (i + j)%nat a = Ok b) -> exists r, mapiE f i l = Ok r.
Proof.
  induction l as [|a l IH]; intros i H; [exists []; reflexivity|]. destruct (H 0%nat a eq_refl) as (b & E). rewrite Nat.add_0_r in E.
  destruct (IH (S i)) as (r & Er). { intros j x Ej. destruct (H (S j) x Ej) as (y & Ey). rewrite Nat.add_succ_r in Ey. eauto. }
  exists (b :: r). cbn [mapiE]. rewrite E. cbn [bind]. rewrite Er. reflexivity.
Qed.
Lemma every_nth step l : (0 < step)%nat -> forall skip j, nth_error (every step skip l) j = nth_error l (skip + j * step).
Proof.
  intros Hs. induction l as [|x l IH]; intros skip j; cbn [every].
  - destruct j, (skip + _)%nat; reflexivity.
  - destruct skip as [|k].
    + destruct j as [|j]; [reflexivity|]. cbn [nth_error]. rewrite IH. replace (0 + S j * step)%nat with (S (step - 1 + j * step)) by (cbn; lia). reflexivity.
    + rewrite IH. reflexivity.
Qed.
Lemma trues_spec l : forall i d, In d (trues i l) <-> (i <= d)%nat /\ nth_error l (d - i) = Some true.
Proof.
  induction l as [|b l IH]; intros i d; cbn [trues].
  - split; [intros []|]. intros (_ & H). destruct (d - i)%nat; discriminate.
  - assert (E : (exists k, d = i + S k)%nat \/ d = i \/ (d < i)%nat). { destruct (Nat.lt_trichotomy d i) as [|[|G]]; [tauto|tauto|]. left. exists (d - i - 1)%nat. lia. }
    destruct b; cbn [In]; rewrite IH; destruct E as [(k & ->)|[->|E]];
    try (replace (i + S k - S i)%nat with k by lia; replace (i + S k - i)%nat with (S k) by lia; cbn [nth_error]; split; [intros [G|(_ & G)]; [lia|split; [lia|exact G]]|intros (_ & G); right; split; [lia|exact G]]).
    + rewrite Nat.sub_diag. cbn [nth_error]. split; [intros _; split; [lia|reflexivity]|tauto].
    + split; [intros [G|(G & _)]; lia|intros (G & _); lia].
    + replace (i + S k - S i)%nat with k by lia. replace (i + S k - i)%nat with (S k) by lia. cbn [nth_error]. split; intros (_ & G); (split; [lia|exact G]).
    + rewrite Nat.sub_diag. cbn [nth_error]. split; intros (G & G'); [lia|discriminate].
    + split; intros (G & _); lia.
Qed.
Lemma nonzero_spec f : forall i c d, In (c, d) (nonzero i f) <-> (i <= c)%nat /\ exists row, nth_error f (c - i) = Some row /\ nth_error row d = Some true.
Proof.
  induction f as [|l f IH]; intros i c d; cbn [nonzero].
  - split; [intros []|]. intros (_ & row & H & _). destruct (c - i)%nat; discriminate.
  - rewrite in_app_iff, IH, in_map_iff. split.
    + intros [(x & E & H)|(H & row & E1 & E2)].
      * injection E as <- <-. apply trues_spec in H as (_ & H). rewrite Nat.sub_0_r in H. split; [lia|]. exists l. rewrite Nat.sub_diag. auto.
      * split; [lia|]. exists row. replace (c - i)%nat with (S (c - S i)) by lia. auto.
    + intros (H & row & E1 & E2). destruct (Nat.eq_dec c i) as [->|N].
      * left. rewrite Nat.sub_diag in E1. injection E1 as ->. exists d. split; [reflexivity|]. apply trues_spec. rewrite Nat.sub_0_r. split; [lia|exact E2].
      * right. split; [lia|]. exists row. replace (c - i)%nat with (S (c - S i)) in E1 by lia. auto.
Qed.
Fixpoint how_many (l : list bool) : nat := match l with [] => 0 | b :: r => (if b then 1 else 0) + how_many r end.
Lemma trues_len l : forall i, length (trues i l) = how_many l.
Proof. induction l as [|[] l IH]; intros i; cbn; [reflexivity|now rewrite IH|apply IH]. Qed.
Lemma nonzero_len f : forall i, length (nonzero i f) = how_many (concat f).
Proof.
  induction f as [|l f IH]; intros i; [reflexivity|]. cbn [nonzero concat]. rewrite app_length, map_length, trues_len, IH. clear. induction l as [|b l IHl]; cbn; [reflexivity|]. rewrite <- IHl. lia.
Qed.
Lemma bandwidth_ge n : (5 <= bandwidth n / 2)%nat.
Proof. unfold bandwidth. apply Nat.div_le_lower_bound; [lia|]. pose proof (Nat.le_max_r (n / 100) 10). lia. Qed.
Lemma in_every step l : (0 < step)%nat -> forall x, In x (every step 0 l) -> In x l.
Proof. intros H x Hx. apply In_nth_error in Hx as (j & E). rewrite every_nth in E by exact H. now apply nth_error_In in E. Qed.

Section Trace.
Variables (p : post) (loglike : list (list R)) (draw : list R) (divs : option (list (list bool))) (ylim : nat -> R * R) (params scale labels : texts).
(** the samples of all parameters, and the likelihoods, have a value for every chain and draw, and there are draws *)
Variable nchain : nat.
Definition full (c : list (list R)) : Prop := length c = nchain /\ Forall (fun d => length d = length draw) c.
Hypothesis Full : forall n c, get p n = Some c -> full c.
Hypothesis FullL : length loglike = nchain.
Let names := given params (map fst p).
Let words := match scale with NoTexts => repeat (s2l "linear") (length names) | OneText w => repeat w (length names) | Texts l => l end.
Let plotted := plot_trace p loglike draw divs ylim params scale labels.

(** refused exactly for unknown parameters and for as many scales or labels as there are not parameters *)
Theorem C113_trace_ok_iff : (exists ps, plotted = Ok ps) <->
  (forall n, In n names -> In n (map fst p)) /\ (forall l, scale = Texts l -> length l = length names) /\
  length (match labels with NoTexts => names | OneText t => [t] | Texts l => l end) = length names.
Proof.
  assert (W : length words = length names <-> forall l, scale = Texts l -> length l = length names).
  { unfold words. destruct scale as [|w|l]; rewrite ?repeat_length; split; try discriminate; try reflexivity; [intros H m E; now injection E as <-|intros H; now apply H]. }
  fold (given labels names). unfold plotted, plot_trace. cbv zeta. fold names. fold words. rewrite <- W, <- all_in.
  destruct (forallb (fun n => str_in n (map fst p)) names) eqn:E1; cbn [negb]; [|split; [intros (? & ?); discriminate|intros (? & _); discriminate]].
  destruct (Nat.eqb_spec (length words) (length names)) as [E2|E2]; cbn [negb]; [|split; [intros (? & ?); discriminate|tauto]].
  destruct (Nat.eqb_spec (length (given labels names)) (length names)) as [E3|E3]; cbn [negb]; [|split; [intros (? & ?); discriminate|tauto]].
  split; [intros _; auto|]. intros _. apply mapiE_ok. intros j [n [w lb]] Hj. cbn [Nat.add]. cbn iota beta.
  assert (Hn : In n names) by (apply nth_error_In, in_combine_l in Hj; exact Hj). rewrite all_in in E1. apply E1, has_in in Hn as (l & c & Ec & _). rewrite Ec.
  set (b := (str_eqb w (s2l "log") && _)%bool). 
  destruct (mapiE_ok (fun k '(sample, ll) => trace_of b draw (length c) k sample ll) (combine c loglike) 0) as (r & Er).
  { intros k [s ll] Hk. cbn iota beta. unfold trace_of, gaussian_kernel_smooth. cbv zeta. destruct (Full n c Ec) as (_ & Fc). rewrite Forall_forall in Fc.
    assert (Ls : length s = length draw) by (apply Fc; apply nth_error_In, in_combine_l in Hk; exact Hk).
    assert (Ly : length (if b then map ln s else s) = length draw) by (destruct b; rewrite ?map_length; exact Ls). rewrite Ly, Nat.eqb_refl. cbn [negb bind]. eauto. }
  rewrite Er. cbn [bind]. eauto.
Qed.
Print Assumptions C113_trace_ok_iff.

(** one row per parameter, with its label; logarithmic exactly if asked for and all samples are positive; one set of curves
    per chain, with the samples of that chain, moved by less than one draw; the smoothed curve has a value at every
    [max (ndraw // 100) 10 // 2]-th draw, which lies between the smallest and the largest sample of that chain *)
Theorem C113_trace : forall ps, plotted = Ok ps -> length ps = length names /\
  forall i n w lb, nth_error names i = Some n -> nth_error words i = Some w -> nth_error (given labels names) i = Some lb ->
  exists pa chains, nth_error ps i = Some pa /\ get p n = Some chains /\ pa_label pa = lb /\
  (pa_log pa = true <-> w = s2l "log" /\ forall c x, In c chains -> In x c -> 0 < x) /\
  length (pa_curves pa) = nchain /\
  forall c s ll, nth_error chains c = Some s -> nth_error loglike c = Some ll -> exists cu, nth_error (pa_curves pa) c = Some cu /\
    cu_y cu = s /\ cu_dev cu = map (fun l => -2 * l) ll /\
    (exists shift, 0 <= shift < 1 /\ shift * INR nchain = INR c /\ cu_x cu = map (fun d => d + shift) draw) /\
    (forall j, nth_error (cu_at cu) j = nth_error draw (j * (Nat.max (length draw / 100) 10 / 2))) /\
    length (cu_smooth cu) = length (cu_at cu) /\
    (forall v, In v (cu_smooth cu) -> exists x lo hi, v = Some x /\ In lo s /\ In hi s /\ lo <= x <= hi).
Proof.
  intros ps H. unfold plotted, plot_trace in H. cbv zeta in H. fold names in H. fold words in H.
  destruct (forallb (fun n => str_in n (map fst p)) names) eqn:E1; [|discriminate]. rewrite all_in in E1. cbn [negb] in H.
  destruct (Nat.eqb_spec (length words) (length names)) as [E2|E2]; cbn [negb] in H; [|discriminate].
  destruct (Nat.eqb_spec (length (given labels names)) (length names)) as [E3|E3]; cbn [negb] in H; [|discriminate].
  apply mapiE_nth in H as (L & N). split. { rewrite L, !combine_length, E2, E3. lia. }
  intros i n w lb Hn Hw Hl. destruct (N i _ (nth_error_both _ _ _ _ _ Hn (nth_error_both _ _ _ _ _ Hw Hl))) as (pa & Ei & Ep). cbn [Nat.add] in Ep. cbn iota beta in Ep.
  assert (In1 : In n (map fst p)) by (apply E1; now apply nth_error_In in Hn). apply has_in in In1 as (l & chains & Ec & _). rewrite Ec in Ep.
  destruct (Full n chains Ec) as (Fc1 & Fc2). set (b := (str_eqb w (s2l "log") && forallb (fun x => Rltb 0 x) (concat chains))%bool) in Ep.
  apply bind_inv in Ep as (curves & Ecv & Ep). assert (pa = {| pa_label := lb; pa_log := b; pa_curves := curves;
     pa_marks := map (fun '(c, d) => (INR d, mark_top w (ylim i), nth d (nth c chains []) 0)) (match divs with Some f => nonzero 0 f | None => [] end) |}) by congruence. subst pa.
  exists {| pa_label := lb; pa_log := b; pa_curves := curves;
     pa_marks := map (fun '(c, d) => (INR d, mark_top w (ylim i), nth d (nth c chains []) 0)) (match divs with Some f => nonzero 0 f | None => [] end) |}, chains.
  cbn [pa_label pa_log pa_curves]. split; [exact Ei|]. split; [exact Ec|]. split; [reflexivity|].
  assert (Hb : b = true <-> w = s2l "log" /\ forall c x, In c chains -> In x c -> 0 < x).
  { unfold b. rewrite Bool.andb_true_iff, forallb_forall. destruct (str_eqb_spec w (s2l "log")) as [->|Nw]; [|split; [intros (? & _); discriminate|tauto]]. split.
    - intros (_ & A). split; [reflexivity|]. intros c x Hc Hx. assert (Hx' : In x (concat chains)) by (apply in_concat; eauto). apply A in Hx'. destruct (Rltb_spec 0 x); [assumption|discriminate].
    - intros (_ & A). split; [reflexivity|]. intros x Hx. apply in_concat in Hx as (c & Hc & Hx). specialize (A c x Hc Hx). destruct (Rltb_spec 0 x); [reflexivity|lra]. }
  split; [exact Hb|]. apply mapiE_nth in Ecv as (Lc & Nc). split. { rewrite Lc, combine_length, Fc1, FullL. lia. }
  intros c s ll Hs Hll. destruct (Nc c _ (nth_error_both _ _ _ _ _ Hs Hll)) as (cu & Ecu & Et). cbn [Nat.add] in Et. cbn iota beta in Et. exists cu. split; [exact Ecu|].
  unfold trace_of in Et. cbv zeta in Et. apply bind_inv in Et as (sm & Es & Et). injection Et as <-. cbn [cu_x cu_y cu_at cu_smooth cu_dev].
  split; [reflexivity|]. split; [reflexivity|]. pose proof (bandwidth_ge (length draw)) as B5. set (bw := bandwidth (length draw)) in *.
  assert (Hc : (c < nchain)%nat) by (rewrite <- Fc1; apply nth_error_Some; congruence). apply lt_INR in Hc. pose proof (pos_INR c) as Pc.
  split. { exists (INR c / INR (length chains)). rewrite Fc1. split; [split|].
    - apply Rmult_le_pos; [exact Pc|]. left. apply Rinv_0_lt_compat. lra.
    - apply (Rmult_lt_reg_r (INR nchain)); [lra|]. unfold Rdiv. rewrite Rmult_assoc, Rinv_l by lra. lra.
    - split; [field; lra|reflexivity]. }
  split. { intros j. rewrite every_nth by (apply (Nat.lt_le_trans _ 5); [repeat constructor|exact B5]). reflexivity. }
  assert (Ls : length s = length draw). { rewrite Forall_forall in Fc2. apply Fc2. now apply nth_error_In in Hs. }
  set (y := if b then map ln s else s) in *. assert (Ly : length draw = length y) by (unfold y; destruct b; rewrite ?map_length; now symmetry).
  unfold gaussian_kernel_smooth in Es. rewrite <- Ly, Nat.eqb_refl in Es. cbn [negb] in Es. assert (sm = map (smooth_at draw y (INR bw) 0.683) (every (bw / 2) 0 draw)) by congruence. subst sm.
  split. { destruct b; now rewrite !map_length. }
  assert (G : forall v, In v (map (smooth_at draw y (INR bw) 0.683) (every (bw / 2) 0 draw)) -> exists x lo hi, v = Some x /\ In lo y /\ In hi y /\ lo <= x <= hi).
  { intros v Hv. apply in_map_iff in Hv as (e & <- & He). apply in_every in He; [|lia]. assert (Nd : draw <> []) by (intros ->; destruct He).
    destruct (smooth_at draw y (INR bw) 0.683 e) as [x|] eqn:Sx; [|exfalso; revert Sx; apply C112_smooth_own; [exact He|lra]].
    assert (Ny : y <> []). { intros E. rewrite E in Ly. destruct draw; [congruence|discriminate]. }
    destruct (lmin_spec y Ny) as (A1 & A2). destruct (lmax_spec y Ny) as (B1 & B2). exists x, (lmin y), (lmax y). split; [reflexivity|]. split; [exact A1|]. split; [exact B1|].
    apply (C112_smooth_between draw y (INR bw) 0.683 e x); try assumption. apply Forall_forall. intros a Ha. split; [now apply A2|now apply B2]. }
  destruct b eqn:Eb; [|exact G]. intros v Hv. apply in_map_iff in Hv as (v' & <- & Hv). destruct (G v' Hv) as (x & lo & hi & -> & Hlo & Hhi & Bx). unfold y in Hlo, Hhi.
  apply in_map_iff in Hlo as (a & <- & Ha). apply in_map_iff in Hhi as (z & <- & Hz). cbn [option_map]. exists (exp x), a, z. split; [reflexivity|]. split; [exact Ha|]. split; [exact Hz|].
  destruct (proj1 Hb eq_refl) as (_ & Pos). assert (Pa : 0 < a) by (apply (Pos s); [now apply nth_error_In in Hs|exact Ha]). assert (Pz : 0 < z) by (apply (Pos s); [now apply nth_error_In in Hs|exact Hz]).
  assert (Mono : forall u v, u <= v -> exp u <= exp v) by (intros u v [Q| ->]; [left; now apply exp_increasing|lra]).
  destruct Bx as (B1 & B2). apply Mono in B1, B2. rewrite exp_ln in B1, B2 by assumption. split; assumption.
Qed.
Print Assumptions C113_trace.

(** the marks of a row: one per divergence, at its draw and at the sample of its chain and draw *)
Theorem C113_trace_marks : forall ps i n w pa chains, plotted = Ok ps -> nth_error names i = Some n -> nth_error words i = Some w -> nth_error ps i = Some pa -> get p n = Some chains ->
  (divs = None -> pa_marks pa = []) /\
  forall f, divs = Some f -> length (pa_marks pa) = how_many (concat f) /\
  forall x top s, In (x, top, s) (pa_marks pa) <-> top = mark_top w (ylim i) /\
    exists c d row, nth_error f c = Some row /\ nth_error row d = Some true /\ x = INR d /\ s = nth d (nth c chains []) 0.
Proof.
  intros ps i n w pa chains H Hn Hw Hp Ec. unfold plotted, plot_trace in H. cbv zeta in H. fold names in H. fold words in H.
  destruct (forallb (fun n => str_in n (map fst p)) names) eqn:E1; [|discriminate]. cbn [negb] in H.
  destruct (Nat.eqb_spec (length words) (length names)) as [E2|E2]; cbn [negb] in H; [|discriminate].
  destruct (Nat.eqb_spec (length (given labels names)) (length names)) as [E3|E3]; cbn [negb] in H; [|discriminate].
  apply mapiE_nth in H as (L & N). assert (Li : (i < length names)%nat) by (apply nth_error_Some; congruence).
  destruct (nth_error (given labels names) i) as [lb|] eqn:Hl; [|apply nth_error_None in Hl; lia].
  destruct (N i _ (nth_error_both _ _ _ _ _ Hn (nth_error_both _ _ _ _ _ Hw Hl))) as (pa' & Ei & Ep). cbn [Nat.add] in Ep. cbn iota beta in Ep. rewrite Ec in Ep.
  assert (pa' = pa) by congruence. subst pa'. apply bind_inv in Ep as (curves & _ & Ep).
  assert (M : pa_marks pa = map (fun '(c, d) => (INR d, mark_top w (ylim i), nth d (nth c chains []) 0)) (match divs with Some f => nonzero 0 f | None => [] end)).
  { injection Ep as <-. reflexivity. }
  rewrite M. split; [intros E; rewrite E; reflexivity|]. intros f E. rewrite E, map_length, nonzero_len. split; [reflexivity|]. intros x top s. rewrite in_map_iff. split.
  - intros ([c d] & Eq & Hcd). injection Eq as <- <- <-. split; [reflexivity|]. apply nonzero_spec in Hcd as (_ & row & R1 & R2). rewrite Nat.sub_0_r in R1. exists c, d, row. auto.
  - intros (-> & c & d & row & R1 & R2 & -> & ->). exists (c, d). split; [reflexivity|]. apply nonzero_spec. rewrite Nat.sub_0_r. split; [lia|eauto].
Qed.
Print Assumptions C113_trace_marks.
End Trace.

(** a mark starts at the lower limit of the axis and ends inside it *)
Theorem C113_mark_top : forall w lo hi, lo < hi -> w = s2l "linear" \/ 0 < lo -> exists top, mark_top w (lo, hi) = Some top /\ lo < top < hi.
Proof.
  intros w lo hi L C. unfold mark_top. destruct (str_eqb_spec w (s2l "linear")) as [->|N]; [exists (lo + 0.1 * (hi - lo)); split; [reflexivity|split; lra]|].
  destruct C as [|P]; [contradiction|]. destruct (Rltb_spec 0 lo); [|lra]. destruct (Rltb_spec 0 hi); [|lra]. cbn [andb]. eexists. split; [reflexivity|].
  assert (Ln : 0 < ln hi - ln lo) by (pose proof (ln_increasing lo hi P L); lra). split.
  - assert (E : exp 0 < exp (0.1 * (ln hi - ln lo))) by (apply exp_increasing; nra). rewrite exp_0 in E. nra.
  - assert (E : exp (0.1 * (ln hi - ln lo)) < exp (ln hi - ln lo)) by (apply exp_increasing; nra). unfold Rminus in E at 2. rewrite exp_plus, exp_Ropp, !exp_ln in E by lra.
    apply (Rmult_lt_compat_l lo) in E; [|exact P]. replace (lo * (hi * / lo)) with hi in E by (field; lra). exact E.
Qed.
(** ... but a logarithmic axis that was asked for and could not be had (some sample is not positive) loses its marks *)
Theorem C113_mark_refuted : forall lo hi, lo <= 0 -> mark_top (s2l "log") (lo, hi) = None.
Proof.
  intros lo hi H. unfold mark_top. destruct (str_eqb_spec (s2l "log") (s2l "linear")) as [E|_]; [discriminate|]. destruct (Rltb_spec 0 lo); [lra|]. reflexivity.
Qed.
Print Assumptions C113_mark_top.
Print Assumptions C113_mark_refuted.

(** ** instances *)
Definition ex_post : post := [(s2l "K", [[1; 2]; [3; 4]]); (s2l "alpha", [[-1; -2]; [-3; -4]])].
Example C113_corner_ex : exists c, plot_corner ex_post [s2l "chain"; s2l "draw"] NoTexts NoTexts NoTexts NoNumbers None None = Ok c /\ length (co_titles c) = 2%nat.
Proof.
  destruct (C113_corner_ok ex_post [s2l "chain"; s2l "draw"] NoTexts NoTexts NoTexts NoNumbers None None) as (c & H).
  - intros n Hn. destruct Hn as [<-|[<-|[]]].
    + exists [1; 2; 3; 4]. destruct (quantile_defined [1; 2; 3; 4] 0.5) as (m & Q); [discriminate|lra|]. exists m. split; [exists [[1; 2]; [3; 4]]; split; reflexivity|]. split; [discriminate|]. split; [exact Q|].
      destruct (quantile_range _ _ _ Q) as ((a & Ha & La) & _). cbn in Ha. destruct Ha as [|[|[|[|[]]]]]; lra.
    + exists [-1; -2; -3; -4]. destruct (quantile_defined [-1; -2; -3; -4] 0.5) as (m & Q); [discriminate|lra|]. exists m. split; [exists [[-1; -2]; [-3; -4]]; split; reflexivity|]. split; [discriminate|]. split; [exact Q|].
      destruct (quantile_range _ _ _ Q) as (_ & (a & Ha & La)). cbn in Ha. destruct Ha as [|[|[|[|[]]]]]; lra.
  - reflexivity.
  - reflexivity.
  - now left.
  - discriminate.
  - exists c. split; [exact H|]. exact (proj1 (proj2 (C113_corner_titles _ _ _ _ _ _ _ _ _ H))).
Qed.
Example C113_trace_ex : exists ps, plot_trace ex_post [[-5; -6]; [-7; -8]] [0; 1] (Some [[false; true]; [true; false]]) (fun _ => (-5, 5)) NoTexts (OneText (s2l "log")) NoTexts = Ok ps /\
  length ps = 2%nat /\ exists pa, nth_error ps 1 = Some pa /\ length (pa_marks pa) = 2%nat /\ In (1, None, -2) (pa_marks pa).
Proof.
  set (run := plot_trace _ _ _ _ _ _ _ _).
  assert (Full : forall n c, get ex_post n = Some c -> full [0; 1] 2 c).
  { intros n c H. apply get_in in H. destruct H as [H|[H|[]]]; injection H as <- <-; split; try reflexivity; repeat constructor. }
  destruct (proj2 (C113_trace_ok_iff ex_post [[-5; -6]; [-7; -8]] [0; 1] (Some [[false; true]; [true; false]]) (fun _ => (-5, 5)) NoTexts (OneText (s2l "log")) NoTexts 2 Full)) as (ps & E).
  { split; [intros n Hn; exact Hn|]. split; [discriminate|reflexivity]. }
  exists ps. split; [exact E|]. destruct (C113_trace ex_post [[-5; -6]; [-7; -8]] [0; 1] _ _ _ _ _ 2 Full eq_refl ps E) as (L & T). split; [exact L|].
  destruct (T 1%nat (s2l "alpha") (s2l "log") (s2l "alpha") eq_refl eq_refl eq_refl) as (pa & chains & Hp & Hc & _). exists pa. split; [exact Hp|].
  destruct (C113_trace_marks ex_post [[-5; -6]; [-7; -8]] [0; 1] _ _ _ _ _ 2 eq_refl ps 1 (s2l "alpha") (s2l "log") pa chains E eq_refl eq_refl Hp Hc) as (_ & M).
  destruct (M _ eq_refl) as (M1 & M2). split; [exact M1|]. apply M2. split; [symmetry; apply C113_mark_refuted; lra|]. exists 0%nat, 1%nat, [false; true].
  split; [reflexivity|]. split; [reflexivity|]. split; [reflexivity|]. cbn in Hc. injection Hc as <-. reflexivity.
Qed.
