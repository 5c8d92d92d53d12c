(** C90: parameters integrated over an interval. *)
From Coq Require Import Reals.
From Coquelicot Require Import Coquelicot.
From Verif Require Import RBase Interval.
From Coq Require Import FunctionalExtensionality List Lia Lra.
Open Scope R_scope.

(** ** Specification *)
(** the iterated integral of [f] over the intervals, the first of the list being the outermost *)
Fixpoint iterated (ints : list interval) (f : params -> R) (p : params) (I : R) : Prop :=
  match ints with
  | [] => I = f p
  | (i, (a, b)) :: r => exists g : R -> R, (forall v, iterated r f (set_par p i v) (g v)) /\ is_RInt g a b I
  end.
Definition volume (ints : list interval) : R := fold_right (fun i v => (snd (snd i) - fst (snd i)) * v) 1 ints.
(** the quadrature returns the integral where there is one *)
Definition exact (Q : (R -> R) -> R -> R -> R) : Prop := forall (g : R -> R) a b I, is_RInt g a b I -> Q g a b = I.
Definition nonempty (ints : list interval) : Prop := Forall (fun i => fst (snd i) <> snd (snd i)) ints.

Lemma volume_nz ints : nonempty ints -> volume ints <> 0.
Proof. induction 1 as [|[i [a b]] r H F IH]; cbn; [lra|]. apply Rmult_integral_contrapositive_currified; [cbn in H; lra|exact IH]. Qed.
Lemma nonempty_rev ints : nonempty ints -> nonempty (rev ints).
Proof. unfold nonempty. intros H. rewrite Forall_forall in *. intros x Hx. apply H. now apply in_rev. Qed.
Lemma nonempty_b ints : nonempty ints <-> existsb empty_interval ints = false.
Proof.
  unfold nonempty. induction ints as [|[i [a b]] r IH]; cbn; [split; [reflexivity|constructor]|]. unfold empty_interval at 1. cbn. destruct (Reqb_spec a b) as [E|E]; cbn.
  - split; [intros H; inversion H; cbn in *; contradiction|discriminate].
  - rewrite <- IH. split; [now inversion 1|]. now constructor.
Qed.
Lemma out_snoc Q ints i a b f p : integrate_out Q (ints ++ [(i, (a, b))]) f p = Q (fun v => integrate_out Q ints f (set_par p i v)) a b / (b - a).
Proof. unfold integrate_out. rewrite fold_left_app. reflexivity. Qed.
Lemma out_iterated Q f : exact Q -> forall ints, nonempty ints -> forall p I, iterated ints f p I -> integrate_out Q (rev ints) f p = I / volume ints.
Proof.
  intros HQ. induction ints as [|[i [a b]] r IH]; intros N p I H.
  - cbn in H. subst I. cbn. field.
  - inversion N as [|? ? Hab Nr]; subst. cbn in Hab. destruct H as (g & Hg & HI). cbn [rev volume fold_right fst snd]. rewrite out_snoc.
    rewrite (HQ _ a b (/ volume r * I)).
    + pose proof (volume_nz r Nr) as V. unfold volume in *. field. split; [exact V|lra].
    + apply (is_RInt_ext (fun v => scal (/ volume r) (g v))).
      * intros v _. rewrite (IH Nr _ _ (Hg v)). unfold scal. cbn. unfold mult. cbn. unfold Rdiv. ring.
      * change (/ volume r * I) with (scal (/ volume r) I). now apply (is_RInt_scal (V := R_NormedModule)).
Qed.

(** ** the documented value: the integral over all interval parameters, divided by the product of their lengths *)
Theorem C90_mean : forall Q f ints p I, exact Q -> nonempty ints -> iterated (rev ints) f p I -> model_value Q ints f p = Some (I / volume (rev ints)).
Proof.
  intros Q f ints p I HQ N H. unfold model_value. apply nonempty_b in N as E. rewrite E. f_equal.
  rewrite <- (rev_involutive ints) at 1. apply out_iterated; [exact HQ|now apply nonempty_rev|exact H].
Qed.
Print Assumptions C90_mean.
Theorem C90_volume : forall ints, volume (rev ints) = volume ints.
Proof.
  intros ints. assert (A : forall l m, volume (l ++ m) = volume l * volume m).
  { induction l as [|x l IH]; intros m; [change (volume m = 1 * volume m); ring|]. change ((snd (snd x) - fst (snd x)) * volume (l ++ m) = (snd (snd x) - fst (snd x)) * volume l * volume m). rewrite IH. ring. }
  induction ints as [|x r IH]; [reflexivity|]. cbn [rev]. rewrite A, IH. change (volume r * ((snd (snd x) - fst (snd x)) * 1) = (snd (snd x) - fst (snd x)) * volume r). ring.
Qed.
Print Assumptions C90_volume.

(** ** a model that does not depend on the interval parameters is unchanged (several models of a fit share one list of intervals) *)
Lemma iterated_const f : forall ints p, (forall p', (forall j, ~ In j (map fst ints) -> p' j = p j) -> f p' = f p) -> iterated ints f p (f p * volume ints).
Proof.
  induction ints as [|[i [a b]] r IH]; intros p H.
  - cbn. lra.
  - cbn [iterated]. exists (fun _ => f p * volume r). split.
    + intros v. assert (E : f (set_par p i v) = f p).
      { apply H. intros j Hj. unfold set_par. destruct (Nat.eqb_spec j i) as [->|]; [exfalso; apply Hj; now left|reflexivity]. }
      rewrite <- E. apply IH. intros p' Hp. rewrite E. apply H. intros j Hj. rewrite Hp by (intros K; apply Hj; now right).
      unfold set_par. destruct (Nat.eqb_spec j i) as [->|]; [exfalso; apply Hj; now left|reflexivity].
    + replace (f p * volume ((i, (a, b)) :: r)) with (scal (b - a) (f p * volume r)); [apply (is_RInt_const (V := R_NormedModule))|].
      unfold scal. cbn. unfold mult. cbn. fold (volume r). ring.
Qed.
Theorem C90_independent : forall Q f ints p, exact Q -> nonempty ints ->
  (forall p', (forall j, ~ In j (map fst ints) -> p' j = p j) -> f p' = f p) -> model_value Q ints f p = Some (f p).
Proof.
  intros Q f ints p HQ N H. rewrite (C90_mean Q f ints p (f p * volume (rev ints)) HQ N).
  - f_equal. field. apply volume_nz. now apply nonempty_rev.
  - apply iterated_const. intros p' Hp. apply H. intros j Hj. apply Hp. intros K. apply Hj. rewrite map_rev in K. now apply in_rev.
Qed.
Print Assumptions C90_independent.

(** ** the value stays between the bounds of the model over the intervals, whichever end of an interval is given first *)
Definition inside (ints : list interval) (p q : params) : Prop :=
  (forall j, ~ In j (map fst ints) -> q j = p j) /\
  forall j, In j (map fst ints) -> exists a b, In (j, (a, b)) ints /\ Rmin a b <= q j <= Rmax a b.
Lemma mean_bounds (g : R -> R) a b I m M : a <> b -> (forall v, Rmin a b <= v <= Rmax a b -> m <= g v <= M) -> is_RInt g a b I -> m <= I / (b - a) <= M.
Proof.
  assert (W : forall a b I, a < b -> (forall v, a <= v <= b -> m <= g v <= M) -> is_RInt g a b I -> m <= I / (b - a) <= M).
  { intros x y J L H HI. assert (P : 0 < y - x) by lra.
    assert (H1 : (y - x) * m <= J).
    { apply (is_RInt_le (fun _ => m) g x y); [lra| |exact HI|intros v Hv; apply H; lra]. exact (is_RInt_const (V := R_NormedModule) x y m). }
    assert (H2 : J <= (y - x) * M).
    { apply (is_RInt_le g (fun _ => M) x y); [lra|exact HI| |intros v Hv; apply H; lra]. exact (is_RInt_const (V := R_NormedModule) x y M). }
    split; [apply Rmult_le_reg_r with (y - x)|apply Rmult_le_reg_r with (y - x)]; try exact P; unfold Rdiv; rewrite Rmult_assoc, Rinv_l by lra; lra. }
  intros N H HI. destruct (Rlt_le_dec a b) as [L|L].
  - apply W; [exact L| |exact HI]. intros v Hv. apply H. rewrite Rmin_left, Rmax_right by lra. exact Hv.
  - replace (I / (b - a)) with ((- I) / (a - b)) by (field; lra). apply W; [lra| |].
    + intros v Hv. apply H. rewrite Rmin_right, Rmax_left by lra. exact Hv.
    + now apply (is_RInt_swap (V := R_NormedModule)) in HI.
Qed.
Lemma iterated_bounds f m M : forall ints, nonempty ints -> forall p I, (forall q, inside ints p q -> m <= f q <= M) -> iterated ints f p I -> m <= I / volume ints <= M.
Proof.
  induction ints as [|[i [a b]] r IH]; intros N p I H HI.
  - cbn in HI. subst I. cbn. replace (f p / 1) with (f p) by field. apply H. split; [reflexivity|intros j []].
  - inversion N as [|? ? Hab Nr]; subst. cbn in Hab. destruct HI as (g & Hg & HI). pose proof (volume_nz r Nr) as V.
    assert (E : I / volume ((i, (a, b)) :: r) = (/ volume r * I) / (b - a)) by (unfold volume in *; cbn in *; field; split; [exact V|lra]).
    assert (B : m <= (/ volume r * I) / (b - a) <= M); [|destruct B as [B1 B2]; split; [exact (Rle_trans _ _ _ B1 (Req_le_sym _ _ E))|exact (Rle_trans _ _ _ (Req_le _ _ E) B2)]].
    apply (mean_bounds (fun v => / volume r * g v)); [exact Hab| |].
    + intros v Hv. replace (/ volume r * g v) with (g v / volume r) by (unfold Rdiv; ring). apply (IH Nr (set_par p i v)); [|apply Hg].
      intros q (Q1 & Q2). apply H. split.
      * intros j Hj. rewrite Q1 by (intros K; apply Hj; now right). unfold set_par. destruct (Nat.eqb_spec j i) as [->|]; [exfalso; apply Hj; now left|reflexivity].
      * intros j [E1|Hj]; [cbn in E1; subst j|destruct (Q2 j Hj) as (a' & b' & K & B); exists a', b'; split; [now right|exact B]].
        destruct (in_dec Nat.eq_dec i (map fst r)) as [K|K].
        { destruct (Q2 i K) as (a' & b' & K' & B). exists a', b'. split; [now right|exact B]. }
        exists a, b. split; [now left|]. rewrite (Q1 i K). unfold set_par. rewrite Nat.eqb_refl. exact Hv.
    + exact (is_RInt_scal (V := R_NormedModule) g a b (/ volume r) I HI).
Qed.
Theorem C90_bounds : forall Q f ints p I m M, exact Q -> nonempty ints -> iterated (rev ints) f p I -> (forall q, inside ints p q -> m <= f q <= M) ->
  exists y, model_value Q ints f p = Some y /\ m <= y <= M.
Proof.
  intros Q f ints p I m M HQ N HI H. eexists. split; [now apply (C90_mean Q f ints p I)|]. apply (iterated_bounds f m M (rev ints) (nonempty_rev _ N) p); [|exact HI].
  intros q (Q1 & Q2). apply H. split.
  - intros j Hj. apply Q1. intros K. apply Hj. rewrite map_rev in K. now apply in_rev.
  - intros j Hj. destruct (Q2 j) as (a & b & K & B); [rewrite map_rev; now apply -> in_rev|]. exists a, b. split; [now apply in_rev|exact B].
Qed.
Print Assumptions C90_bounds.

(** ** additive components still add up to the total *)
Lemma iterated_plus f g : forall ints p I J, iterated ints f p I -> iterated ints g p J -> iterated ints (fun p => f p + g p) p (I + J).
Proof.
  induction ints as [|[i [a b]] r IH]; intros p I J HI HJ.
  - cbn in *. now subst.
  - destruct HI as (u & Hu & HI), HJ as (w & Hw & HJ). exists (fun v => u v + w v). split; [intros v; now apply IH|].
    exact (is_RInt_plus (V := R_NormedModule) u w a b I J HI HJ).
Qed.
Theorem C90_additive : forall Q ints p (fs : list (params -> R)), exact Q -> nonempty ints -> Forall (fun f => exists I, iterated (rev ints) f p I) fs ->
  exists ys, Forall2 (fun f y => model_value Q ints f p = Some y) fs ys /\
  model_value Q ints (fun p => rsum (map (fun f => f p) fs)) p = Some (rsum ys).
Proof.
  intros Q ints p fs HQ N F.
  assert (G : exists Is, Forall2 (fun f I => iterated (rev ints) f p I) fs Is /\ iterated (rev ints) (fun p => rsum (map (fun f => f p) fs)) p (rsum Is)).
  { induction F as [|f fs (I & HI) F (Is & H1 & H2)].
    - exists []. split; [constructor|]. cbn [map]. unfold rsum. cbn [fold_right].
      pose proof (iterated_const (fun _ => 0) (rev ints) p (fun _ _ => eq_refl)) as Z. cbv beta in Z. rewrite Rmult_0_l in Z. exact Z.
    - exists (I :: Is). split; [now constructor|]. exact (iterated_plus f (fun p => rsum (map (fun f => f p) fs)) (rev ints) p I (rsum Is) HI H2). }
  destruct G as (Is & H1 & H2). exists (map (fun I => I / volume (rev ints)) Is). split.
  - clear -H1 HQ N. induction H1 as [|f I fs Is H _ IH]; cbn [map]; constructor; [now apply C90_mean|exact IH].
  - rewrite (C90_mean _ _ _ _ _ HQ N H2). f_equal. clear. unfold rsum. induction Is as [|I Is IH]; cbn; [unfold Rdiv; ring|]. rewrite <- IH. unfold Rdiv. ring.
Qed.
Print Assumptions C90_additive.

(** ** the value does not depend on what the caller passes for an interval parameter *)
Lemma set_twice p i v w : set_par (set_par p i v) i w = set_par p i w.
Proof. extensionality j. unfold set_par. now destruct (Nat.eqb j i). Qed.
Lemma set_comm p i j v w : i <> j -> set_par (set_par p i v) j w = set_par (set_par p j w) i v.
Proof. intros N. extensionality k. unfold set_par. destruct (Nat.eqb_spec k j), (Nat.eqb_spec k i); congruence. Qed.
Theorem C90_overwritten : forall Q f ints p i v, In i (map fst ints) -> model_value Q ints f (set_par p i v) = model_value Q ints f p.
Proof.
  intros Q f ints p i v H. unfold model_value. destruct (existsb empty_interval ints); [reflexivity|]. f_equal. revert p. rewrite <- (rev_involutive ints).
  assert (H' : In i (map fst (rev ints))) by (rewrite map_rev; now apply -> in_rev). revert H'. clear H. generalize (rev ints). clear ints.
  induction l as [|[j [a b]] r IH]; intros H p; [destruct H|]. cbn [rev]. rewrite !out_snoc. f_equal. f_equal. extensionality w.
  destruct (Nat.eq_dec i j) as [->|N]; [now rewrite set_twice|]. rewrite set_comm by congruence. apply IH. destruct H as [E|H]; [cbn in E; congruence|exact H].
Qed.
Print Assumptions C90_overwritten.

(** an interval is accepted exactly as two numbers with one of the five quadratures, and its ends are kept in order *)
Theorem C90_made : forall v m a b, mk_interval v m = Ok (a, b) <-> v = [a; b] /\ (m < 5)%nat.
Proof.
  intros v m a b. unfold mk_interval. destruct v as [|x [|y [|z v]]]; try (split; [discriminate|intros (H & _); discriminate]).
  destruct (Nat.ltb_spec m 5) as [L|L]; split; try discriminate.
  - intros H. injection H as -> ->. auto.
  - intros (H & _). injection H as -> ->. reflexivity.
  - lia.
Qed.
Print Assumptions C90_made.
(** ** an interval of no length is accepted and makes the model meaningless, instead of the value at that point *)
Theorem C90_point_refuted : forall Q f a i p m, (m < 5)%nat -> mk_interval [a; a] m = Ok (a, a) /\ model_value Q [(i, (a, a))] f p = None.
Proof.
  intros Q f a i p m Hm. split; [unfold mk_interval; destruct (Nat.ltb_spec m 5); [reflexivity|lia]|]. unfold model_value. cbn. unfold empty_interval. cbn. destruct (Reqb_spec a a); [reflexivity|easy].
Qed.
Print Assumptions C90_point_refuted.
(** the hypotheses are met: f = x y over [0, 1] x [0, 2] *)
Example C90_case : forall Q p, exact Q -> model_value Q [(0%nat, (0, 1)); (1%nat, (0, 2))] (fun p => p 0%nat * p 1%nat) p = Some (1 / 2).
Proof.
  intros Q p HQ. rewrite (C90_mean Q _ _ p 1 HQ).
  - f_equal. cbn. field.
  - repeat constructor; cbn; lra.
  - cbn. exists (fun v => v / 2). split.
    + intros v. exists (fun w => w * v). split; [intros w; unfold set_par; reflexivity|].
      replace (v / 2) with ((fun x => x ^ 2 / 2 * v) 1 - (fun x => x ^ 2 / 2 * v) 0) by (cbn; field). apply (is_RInt_derive (V := R_CompleteNormedModule) (fun x => x ^ 2 / 2 * v)).
      * intros x _. auto_derive; [exact I|]. field.
      * intros x _. apply (continuous_mult (fun x => x) (fun _ => v)); [apply continuous_id|apply continuous_const].
    + replace 1 with ((fun x => x ^ 2 / 4) 2 - (fun x => x ^ 2 / 4) 0) by (cbn; field). apply (is_RInt_derive (V := R_CompleteNormedModule) (fun x => x ^ 2 / 4)).
      * intros x _. auto_derive; [exact I|]. field.
      * intros x _. apply (continuous_mult (fun x => x) (fun _ => / 2)); [apply continuous_id|apply continuous_const].
Qed.
(** and such a quadrature exists *)
Example C90_exact : exact (fun g a b => RInt g a b).
Proof. intros g a b I H. exact (is_RInt_unique g a b I H). Qed.
