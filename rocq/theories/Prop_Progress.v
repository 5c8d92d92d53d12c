(** C48: the progress bar of the batch fits, under every interleaving of the callbacks of the devices. *)
From Verif Require Import Base Progress ProgressProofs.
From Coq Require Import ZArith List Lia.
Import ListNotations.
Open Scope Z_scope.

(** [neval] fits on [ncores] devices, [neval / ncores] each *)
Definition reaches (b : bar) (neval ncores : Z) (ws : list (list action)) (h : host) : Prop :=
  steps b (repeat (worker b (Z.to_nat (neval / ncores))) (Z.to_nat ncores), host0) (ws, h).

(** which arguments are accepted *)
Theorem C48_accepted : forall neval ncores ur, 1 <= neval -> 1 <= ncores -> 1 <= ur ->
  (exists b, progress_bar_factory neval ncores ur = Ok b) <-> (ncores | neval).
Proof.
  intros neval ncores ur Hn Hc Hu. unfold progress_bar_factory.
  destruct (Z.eqb_spec ncores 0); [lia|]. rewrite <- Z.mod_divide by lia. destruct (Z.eqb_spec (neval mod ncores) 0); cbn [negb].
  - destruct (Z.eqb_spec ur 0); [lia|]. rewrite Bool.andb_false_r. split; [easy|eauto].
  - split; [intros [b H]; discriminate|contradiction].
Qed.
Print Assumptions C48_accepted.

(** every complete run: the bar receives exactly [neval], never more at any time, all of it before it is closed, and
    is closed at least once and at most once per device (so exactly once on one device) *)
Theorem C48_partial : forall neval ncores ur b ws h, 1 <= neval -> 1 <= ncores -> progress_bar_factory neval ncores ur = Ok b ->
  reaches b neval ncores ws h ->
  0 <= received h <= neval /\ Forall (fun e => snd e = 0%nat) (h_log h) /\ Z.of_nat (h_closes h) <= ncores /\
  (Forall (fun w => w = []) ws -> received h = neval /\ (1 <= h_closes h)%nat).
Proof.
  intros neval ncores ur b ws h Hn Hc Hb Hr. destruct (reach_inv _ _ _ _ _ _ Hb Hc Hn Hr) as (ph & -> & [I1 I2 I3 I4 I5 I6 I7 I8]).
  assert (P : 0 <= pendings ph).
  { clear -I7. induction I7 as [|p ph Hp _ IH]; [unfold pendings, sumZ; cbn; lia|]. rewrite pendings_cons. destruct p as [us| |]; cbn [pend]; try lia.
    assert (0 <= sumZ us); [|lia]. clear -Hp. unfold sumZ. induction Hp; cbn [fold_right]; lia. }
  assert (R : 0 <= received h).
  { clear -I6. unfold received, sumZ. induction I6 as [|e l [_ He] _ IH]; [cbn; lia|]. cbn [map fold_right]. lia. }
  assert (F : (finished ph <= length ph)%nat).
  { clear. induction ph as [|p ph IH]; [cbn; lia|]. rewrite finished_cons. cbn [length]. destruct p; cbn [isD]; lia. }
  split; [lia|]. split; [eapply Forall_impl; [|exact I6]; now intros e [E _]|]. split; [lia|]. intros D.
  assert (Hd : Forall (fun p => p = PD) ph).
  { apply Forall_map in D. eapply Forall_impl; [|exact D]. intros [us| |] E; try discriminate; [|reflexivity]. cbn [prog] in E. now destruct us. }
  assert (Z0 : pendings ph = 0 /\ active ph = 0 /\ ~ In PC ph).
  { clear -Hd. induction Hd as [|p ph -> _ (A & B & C)]; [repeat split; intros []|]. rewrite pendings_cons, active_cons. cbn [pend isU]. split; [lia|]. split; [lia|]. now intros [E|E]. }
  destruct Z0 as (A & B & C). split; [lia|]. destruct (I5 ltac:(lia)) as [E|E]; [lia|contradiction].
Qed.
Print Assumptions C48_partial.

Theorem C48_one_device : forall neval ur b ws h, 1 <= neval -> progress_bar_factory neval 1 ur = Ok b ->
  reaches b neval 1 ws h -> Forall (fun w => w = []) ws -> received h = neval /\ h_closes h = 1%nat.
Proof.
  intros neval ur b ws h Hn Hb Hr Hd. destruct (C48_partial neval 1 ur b ws h Hn ltac:(lia) Hb Hr) as (_ & _ & H & E). destruct (E Hd). lia.
Qed.
Print Assumptions C48_one_device.

(** Full property refuted, 1: the counter is read outside the lock, so with two or more devices there is a schedule in
    which every device closes the bar. *)
Theorem C48_close_many_refuted : forall neval ncores ur b, 1 <= neval -> 2 <= ncores -> progress_bar_factory neval ncores ur = Ok b ->
  exists ws h, reaches b neval ncores ws h /\ Forall (fun w => w = []) ws /\ Z.of_nat (h_closes h) = ncores.
Proof.
  intros neval ncores ur b Hn Hc Hb. destruct (start_inv _ _ _ _ Hb ltac:(lia) Hn) as (us & E & Hbn & I).
  set (k := Z.to_nat ncores). set (l := map Update us ++ [Inc]).
  exists (repeat [] k). eexists. split; [|split].
  - unfold reaches. rewrite E. cbn [prog]. replace (map Update us ++ [Inc; Check]) with (l ++ [Check]) by (unfold l; now rewrite <- app_assoc).
    eapply steps_trans; [exact (steps_each b l [Check] k [] host0)|]. exact (steps_each b [Check] [] k [] _).
  - apply Forall_forall. intros w Hw. now apply repeat_spec in Hw.
  - set (h1 := Nat.iter k (fun h => exec_all b h l) host0).
    assert (U : forall us h, h_counter (exec_all b h (map Update us)) = h_counter h /\ h_closes (exec_all b h (map Update us)) = h_closes h).
    { clear. induction us as [|x us IH]; intros h; [now split|]. cbn [map exec_all fold_left]. fold (exec_all b (exec b h (Update x)) (map Update us)). now rewrite !(proj1 (IH _)), !(proj2 (IH _)). }
    assert (H1 : h_counter h1 = ncores /\ h_closes h1 = 0%nat).
    { assert (G : forall j, h_counter (Nat.iter j (fun h => exec_all b h l) host0) = Z.of_nat j /\ h_closes (Nat.iter j (fun h => exec_all b h l) host0) = 0%nat).
      { induction j as [|j [IH1 IH2]]; [now split|]. change (Nat.iter (S j) (fun h => exec_all b h l) host0) with (exec_all b (Nat.iter j (fun h => exec_all b h l) host0) l).
        assert (L : forall x, exec_all b x l = exec b (exec_all b x (map Update us)) Inc) by (intros x; unfold l, exec_all; now rewrite fold_left_app).
        rewrite L. cbn [exec h_counter h_closes]. rewrite (proj1 (U _ _)), (proj2 (U _ _)), IH1, IH2. lia. }
      destruct (G k) as [G1 G2]. unfold h1, k in *. rewrite G1. split; [lia|exact G2]. }
    assert (G : forall j, h_counter (Nat.iter j (fun h => exec_all b h [Check]) h1) = ncores /\ h_closes (Nat.iter j (fun h => exec_all b h [Check]) h1) = j).
    { induction j as [|j [IH1 IH2]]; [exact H1|]. change (Nat.iter (S j) (fun h => exec_all b h [Check]) h1) with (exec b (Nat.iter j (fun h => exec_all b h [Check]) h1) Check).
      cbn [exec h_counter h_closes]. rewrite IH1, IH2, Hbn, Z.eqb_refl. now split. }
    fold h1. rewrite (proj2 (G k)). unfold k. lia.
Qed.
Print Assumptions C48_close_many_refuted.

(** 2: zero evaluations are accepted, and then the bar is never closed *)
Theorem C48_never_closed_refuted : forall ncores ur, 1 <= ncores -> 1 <= ur -> exists b, progress_bar_factory 0 ncores ur = Ok b /\
  forall ws h, reaches b 0 ncores ws h -> h_closes h = 0%nat.
Proof.
  intros ncores ur Hc Hu. unfold progress_bar_factory. destruct (Z.eqb_spec ncores 0); [lia|]. rewrite Z.mod_0_l, Z.div_0_l by lia. cbn [negb Z.eqb].
  destruct (Z.ltb_spec ur 0); [lia|]. cbn [andb]. eexists. split; [reflexivity|]. intros ws h. unfold reaches. rewrite Z.div_0_l by lia.
  change (Z.to_nat 0) with 0%nat. cbn [worker seq flat_map]. remember (repeat [] (Z.to_nat ncores), host0) as s eqn:Es. remember (ws, h) as s' eqn:E'. intros HS.
  destruct HS as [s|s s' s'' H1 H2]; [subst s; injection E' as _ <-; reflexivity|]. exfalso. destruct H1 as [ws1 a w ws2 h0]. injection Es as Es _.
  assert (In (a :: w) (repeat [] (Z.to_nat ncores))) as X by (rewrite <- Es; apply in_app_iff; right; now left). apply repeat_spec in X. discriminate.
Qed.
Print Assumptions C48_never_closed_refuted.

(** Non-vacuity: 130 fits on 2 devices; the bar counts in steps of 1, 14 fits with an update rate of 2 in steps of 3 *)
Example C48_ex : exists b, progress_bar_factory 130 2 50 = Ok b /\ b_rate b = 1 /\
  exists ws h, reaches b 130 2 ws h /\ Forall (fun w => w = []) ws /\ received h = 130.
Proof.
  eexists. split; [reflexivity|]. split; [reflexivity|].
  destruct (C48_close_many_refuted 130 2 50 _ ltac:(lia) ltac:(lia) eq_refl) as (ws & h & R & D & _). exists ws, h. split; [exact R|]. split; [exact D|].
  destruct (C48_partial 130 2 50 _ ws h ltac:(lia) ltac:(lia) eq_refl R) as (_ & _ & _ & E). now apply E.
Qed.
Example C48_ex2 : exists b, progress_bar_factory 14 2 2 = Ok b /\ b_rate b = 3 /\ b_rem b = 1 /\
  worker b 7 = [Update 0; Update 3; Update 3; Update 1; Inc; Check].
Proof. eexists. repeat split; reflexivity. Qed.
