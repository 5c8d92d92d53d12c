(** Invariants of the progress listener. *)
From Verif Require Import RBase Sampling.
From Coq Require Import List ZArith Lia.
Import ListNotations.
Open Scope list_scope.

Definition of_id (i : nat) (q : list (nat * msg)) : list msg := map snd (filter (fun p => (fst p =? i)%nat) q).
Definition rest (p : proc) : list msg := match p with Running l => l | Crashed l => l | Returned => [] end.
Definition sumn (f : nat -> nat) (n : nat) : nat := fold_right Nat.add O (map f (seq 0 n)).

Record inv (n w t : nat) (s : sys) : Prop := {
  i_ids : Forall (fun p => (fst p < n)%nat) (y_queue s);
  i_split : forall i, (i < n)%nat -> exists c, sampler_msgs w t = c ++ of_id i (y_queue s) ++ rest (y_proc s i) /\
     y_bars s i = fold_left handle c pbar0;
  i_fin : y_finished s = sumn (fun i => p_closes (y_bars s i)) n }.

Lemma of_id_app i q q' : of_id i (q ++ q') = of_id i q ++ of_id i q'.
Proof. unfold of_id. now rewrite filter_app, map_app. Qed.
Lemma upd_same {A} (f : nat -> A) i x : upd f i x i = x.
Proof. unfold upd. now rewrite Nat.eqb_refl. Qed.
Lemma upd_other {A} (f : nat -> A) i x j : j <> i -> upd f i x j = f j.
Proof. intros H. unfold upd. now apply Nat.eqb_neq in H as ->. Qed.
Lemma sumn_S f n : sumn f (S n) = (sumn f n + f n)%nat.
Proof.
  unfold sumn. rewrite seq_S, map_app, fold_right_app. cbn. rewrite Nat.add_0_r.
  assert (G : forall l a, fold_right Nat.add a l = (fold_right Nat.add O l + a)%nat).
  { induction l as [|x l IH]; intros a; cbn; [reflexivity|]. rewrite IH. lia. } apply G.
Qed.
Lemma sumn_ext f g n : (forall i, (i < n)%nat -> f i = g i) -> sumn f n = sumn g n.
Proof. induction n as [|n IH]; intros H; [reflexivity|]. rewrite !sumn_S, IH by (intros; apply H; lia). now rewrite H by lia. Qed.
Lemma sumn_upd f g n i : (i < n)%nat -> (forall j, j <> i -> g j = f j) -> (sumn g n + f i = sumn f n + g i)%nat.
Proof.
  intros Hi H. induction n as [|n IH]; [lia|]. rewrite !sumn_S. destruct (Nat.eq_dec i n) as [->|Hn].
  - rewrite (sumn_ext g f n) by (intros; apply H; lia). lia.
  - specialize (IH ltac:(lia)). rewrite (H n) by lia. lia.
Qed.
Lemma sumn_all_one f n : (forall i, (i < n)%nat -> (f i <= 1)%nat) -> (n <= sumn f n)%nat -> forall i, (i < n)%nat -> f i = 1%nat.
Proof.
  intros H. induction n as [|n IH]; intros Hs i Hi; [lia|]. rewrite sumn_S in Hs.
  assert (B : forall k, (k <= n)%nat -> (sumn f k <= k)%nat).
  { induction k as [|k IHk]; intros Hk; [cbn; lia|]. rewrite sumn_S. specialize (IHk ltac:(lia)). specialize (H k ltac:(lia)). lia. }
  pose proof (B n ltac:(lia)). pose proof (H n ltac:(lia)).
  destruct (Nat.eq_dec i n) as [->|]; [lia|]. apply IH; try lia. intros; apply H; lia.
Qed.
Lemma sumn_le_n f n : (forall i, (i < n)%nat -> (f i <= 1)%nat) -> (sumn f n <= n)%nat.
Proof. intros H. induction n as [|n IH]; [cbn; lia|]. rewrite sumn_S. specialize (H n ltac:(lia)) as Hn. specialize (IH ltac:(intros; apply H; lia)). lia. Qed.
Lemma sumn_lt f n i : (forall i, (i < n)%nat -> (f i <= 1)%nat) -> (i < n)%nat -> f i = O -> (sumn f n < n)%nat.
Proof.
  intros H Hi E. destruct (Nat.lt_ge_cases (sumn f n) n) as [|C]; [assumption|]. pose proof (sumn_all_one f n H C i Hi). lia.
Qed.

Lemma inv0 n w t : inv n w t (sys0 w t).
Proof.
  split; cbn [sys0 y_queue y_proc y_bars y_finished].
  - constructor.
  - intros i Hi. exists []. split; reflexivity.
  - induction n as [|n IH]; [reflexivity|]. rewrite sumn_S, <- IH. reflexivity.
Qed.
Lemma inv_step n w t s s' : inv n w t s -> sstep n s s' -> inv n w t s'.
Proof.
  intros [I1 I2 I3] H. destruct H as [s i m l Hi Hp|s i Hi Hp|s i l Hi Hp|s i m q Hf Hq]; split; cbn [y_queue y_proc y_bars y_finished].
  - apply Forall_app. split; [exact I1|]. constructor; [exact Hi|constructor].
  - intros j Hj. destruct (I2 j Hj) as (c & E & B). exists c. split; [|exact B]. rewrite E. rewrite of_id_app. destruct (Nat.eq_dec j i) as [->|Hn].
    + rewrite upd_same, Hp. unfold of_id at 3. cbn [filter fst map snd rest]. rewrite Nat.eqb_refl. cbn. now rewrite <- app_assoc.
    + rewrite upd_other by exact Hn. unfold of_id at 3. cbn [filter fst map snd]. replace (i =? j)%nat with false by (symmetry; apply Nat.eqb_neq; congruence).
      cbn. now rewrite app_nil_r.
  - exact I3.
  - exact I1.
  - intros j Hj. destruct (I2 j Hj) as (c & E & B). exists c. split; [|exact B]. rewrite E. destruct (Nat.eq_dec j i) as [->|Hn].
    + now rewrite upd_same, Hp. + now rewrite upd_other by exact Hn.
  - exact I3.
  - exact I1.
  - intros j Hj. destruct (I2 j Hj) as (c & E & B). exists c. split; [|exact B]. rewrite E. destruct (Nat.eq_dec j i) as [->|Hn].
    + now rewrite upd_same, Hp. + now rewrite upd_other by exact Hn.
  - exact I3.
  - rewrite Hq in I1. now inversion I1.
  - intros j Hj. destruct (I2 j Hj) as (c & E & B). rewrite Hq in E. unfold of_id in E. cbn [filter fst] in E. destruct (Nat.eq_dec j i) as [->|Hn].
    + rewrite Nat.eqb_refl in E. cbn [map snd] in E. exists (c ++ [m]). split; [rewrite E, <- app_assoc; reflexivity|].
      rewrite upd_same, fold_left_app, <- B. reflexivity.
    + replace (i =? j)%nat with false in E by (symmetry; apply Nat.eqb_neq; congruence). exists c. split; [exact E|]. now rewrite upd_other by exact Hn.
  - assert (Hi : (i < n)%nat) by (rewrite Hq in I1; now inversion I1).
    pose proof (sumn_upd (fun j => p_closes (y_bars s j)) (fun j => p_closes (upd (y_bars s) i (handle (y_bars s i) m) j)) n i Hi) as X.
    cbv beta in X. rewrite upd_same in X. specialize (X ltac:(intros j Hj; now rewrite upd_other)). rewrite I3.
    destruct m; cbn [handle p_closes] in X |- *; lia.
Qed.
Lemma inv_steps n w t s : ssteps n (sys0 w t) s -> inv n w t s.
Proof. intros H. remember (sys0 w t) as s0 eqn:E0. induction H as [s|s s' s'' H1 IH H2]; subst; [apply inv0|]. eapply inv_step; eauto. Qed.

(** effect of a prefix of the program on a bar *)
Lemma prefix_bar w t c r : sampler_msgs w t = c ++ r ->
  let b := fold_left handle c pbar0 in
  (p_updates b <= w + t)%nat /\ p_late b = O /\
  ((r <> [] /\ p_closes b = O /\ In Mfinish r) \/ (r = [] /\ p_closes b = 1%nat /\ p_updates b = (w + t)%nat)).
Proof.
  intros E. unfold sampler_msgs in E.
  set (body := Mwarmup :: repeat Mupdate w ++ Msample :: repeat Mupdate t) in *.
  assert (EB : body ++ [Mfinish] = c ++ r) by (rewrite <- E; unfold body; cbn; now rewrite <- app_assoc). clear E.
  assert (U : forall k b, p_closes b = O -> p_late b = O -> fold_left handle (repeat Mupdate k) b = {| p_updates := p_updates b + k; p_closes := O; p_late := O |}).
  { induction k as [|k IH]; intros b Hc Hl; cbn [repeat fold_left]; [destruct b; cbn in *; subst; now rewrite Nat.add_0_r|].
    rewrite IH; cbn; rewrite ?Hc; auto. f_equal. lia. }
  assert (FB : fold_left handle body pbar0 = {| p_updates := w + t; p_closes := O; p_late := O |}).
  { unfold body. cbn [fold_left handle]. rewrite fold_left_app. cbn [fold_left handle]. rewrite (U w) by reflexivity. rewrite (U t) by reflexivity. reflexivity. }
  assert (NF : ~ In Mfinish body).
  { unfold body. intros [H|H]; [discriminate|]. apply in_app_iff in H as [H|[H|H]]; try discriminate; apply repeat_spec in H; discriminate. }
  destruct r as [|m r] using rev_ind.
  - rewrite app_nil_r in EB. subst c. rewrite fold_left_app, FB. cbn. split; [lia|]. split; [reflexivity|]. right. auto.
  - clear IHr. rewrite app_assoc in EB. apply app_inj_tail in EB as (EB & <-).
    assert (M : forall l b, ~ In Mfinish l -> p_closes b = O -> p_late b = O ->
        let b' := fold_left handle l b in p_closes b' = O /\ p_late b' = O /\ (p_updates b <= p_updates b')%nat).
    { induction l as [|m l IH]; intros b Hn Hc Hl; cbn [fold_left]; [auto|].
      assert (Hm : m <> Mfinish) by (intros ->; apply Hn; now left). assert (Hn' : ~ In Mfinish l) by (intros X; apply Hn; now right).
      destruct m; try congruence; cbn [handle]; try (apply IH; assumption).
      destruct (IH {| p_updates := S (p_updates b); p_closes := p_closes b; p_late := if (0 <? p_closes b)%nat then S (p_late b) else p_late b |} Hn') as (A & B & C).
      { exact Hc. } { cbn. now rewrite Hc. } cbn [p_updates] in C. split; [exact A|]. split; [exact B|]. lia. }
    rewrite EB in NF, FB.
    destruct (M c pbar0) as (A & B & C); [intros X; apply NF; apply in_app_iff; now left|reflexivity|reflexivity|].
    rewrite fold_left_app in FB.
    destruct (M r (fold_left handle c pbar0)) as (A' & B' & C'); [intros X; apply NF; apply in_app_iff; now right|exact A|exact B|].
    rewrite FB in C'. cbn [p_updates] in C'. cbv zeta. split; [lia|]. split; [exact B|]. left. split; [intros X; now destruct r|]. split; [exact A|apply in_app_iff; right; now left].
Qed.

(** every schedule is finite: a measure that each step decreases *)
Definition weight (p : proc) : nat := match p with Running l => 2 * length l + 1 | _ => 0 end.
Definition measure (n : nat) (s : sys) : nat := (sumn (fun i => weight (y_proc s i)) n + length (y_queue s))%nat.
Lemma step_measure n s s' : sstep n s s' -> (measure n s' < measure n s)%nat.
Proof.
  intros H. unfold measure. destruct H as [s i m l Hi Hp|s i Hi Hp|s i l Hi Hp|s i m q Hf Hq]; cbn [y_queue y_proc].
  1: { pose proof (sumn_upd (fun j => weight (y_proc s j)) (fun j => weight (upd (y_proc s) i (Running l) j)) n i Hi) as X; cbv beta in X. rewrite upd_same in X.
       specialize (X ltac:(intros j Hj; now rewrite upd_other)). rewrite Hp in X. cbn [weight length] in X. rewrite app_length. cbn. lia. }
  1: { pose proof (sumn_upd (fun j => weight (y_proc s j)) (fun j => weight (upd (y_proc s) i Returned j)) n i Hi) as X; cbv beta in X. rewrite upd_same in X.
       specialize (X ltac:(intros j Hj; now rewrite upd_other)). rewrite Hp in X. cbn [weight length] in X. lia. }
  1: { pose proof (sumn_upd (fun j => weight (y_proc s j)) (fun j => weight (upd (y_proc s) i (Crashed l) j)) n i Hi) as X; cbv beta in X. rewrite upd_same in X.
       specialize (X ltac:(intros j Hj; now rewrite upd_other)). rewrite Hp in X. cbn [weight length] in X. lia. }
  rewrite Hq. cbn. lia.
Qed.
