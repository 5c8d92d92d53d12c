From Verif Require Import Base Progress.
From Coq Require Import ZArith List Lia.
Import ListNotations.
Open Scope Z_scope.

Inductive phase := PU (us : list Z) | PC | PD.
Definition prog (p : phase) : list action := match p with PU us => map Update us ++ [Inc; Check] | PC => [Check] | PD => [] end.
Definition pend (p : phase) : Z := match p with PU us => sumZ us | _ => 0 end.
Definition isU (p : phase) : Z := match p with PU _ => 1 | _ => 0 end.
Definition isD (p : phase) : nat := match p with PD => 1%nat | _ => 0%nat end.
Definition pendings ph := sumZ (map pend ph).
Definition active ph := sumZ (map isU ph).
Definition finished ph := fold_right Nat.add 0%nat (map isD ph).
Definition received (h : host) := sumZ (map fst (h_log h)).

Lemma sumZ_app a b : sumZ (a ++ b) = sumZ a + sumZ b.
Proof. unfold sumZ. induction a as [|x a IH]; cbn; [reflexivity|rewrite IH; lia]. Qed.
Lemma pendings_app a b : pendings (a ++ b) = pendings a + pendings b.
Proof. unfold pendings. now rewrite map_app, sumZ_app. Qed.
Lemma active_app a b : active (a ++ b) = active a + active b.
Proof. unfold active. now rewrite map_app, sumZ_app. Qed.
Lemma pendings_cons a b : pendings (a :: b) = pend a + pendings b. Proof. reflexivity. Qed.
Lemma active_cons a b : active (a :: b) = isU a + active b. Proof. reflexivity. Qed.
Lemma finished_cons a b : finished (a :: b) = (isD a + finished b)%nat. Proof. reflexivity. Qed.
Lemma finished_app a b : finished (a ++ b) = (finished a + finished b)%nat.
Proof. unfold finished. induction a as [|x a IH]; cbn; [reflexivity|]. rewrite IH. lia. Qed.
Lemma active_nonneg ph : 0 <= active ph.
Proof. induction ph as [|p ph IH]; [unfold active, sumZ; cbn; lia|]. rewrite active_cons. destruct p; cbn [isU]; lia. Qed.

Record inv (T N : Z) (ph : list phase) (h : host) : Prop := {
  i_sum : received h + pendings ph = T;
  i_cnt : h_counter h + active ph = N;
  i_fin : (h_closes h <= finished ph)%nat;
  i_cl : h_closes h <> 0%nat -> h_counter h = N;
  i_last : h_counter h = N -> h_closes h <> 0%nat \/ In PC ph;
  i_log : Forall (fun e => snd e = 0%nat /\ 0 <= fst e) (h_log h);
  i_pos : Forall (fun p => match p with PU us => Forall (fun k => 0 <= k) us | _ => True end) ph;
  i_len : Z.of_nat (length ph) = N }.

Lemma prog_split ph ws1 a w ws2 : map prog ph = ws1 ++ (a :: w) :: ws2 ->
  exists p1 p p2, ph = p1 ++ p :: p2 /\ map prog p1 = ws1 /\ prog p = a :: w /\ map prog p2 = ws2.
Proof.
  intros H. apply map_eq_app in H as (p1 & q & -> & H1 & H2). apply map_eq_cons in H2 as (p & p2 & -> & H2 & H3).
  exists p1, p, p2. auto.
Qed.

Lemma step_inv T N b ph h ws h' : b_ncores b = N -> inv T N ph h -> step b (map prog ph, h) (ws, h') ->
  exists ph', ws = map prog ph' /\ inv T N ph' h'.
Proof.
  intros Hb I H. remember (map prog ph, h) as s eqn:Es. remember (ws, h') as s' eqn:Es'.
  destruct H as [ws1 a w ws2 h0]. injection Es as E1 ->. injection Es' as <- <-.
  symmetry in E1. apply prog_split in E1 as (p1 & p & p2 & -> & <- & Ep & <-).
  destruct I as [I1 I2 I3 I4 I5 I6 I7 I8].
  apply Forall_app in I7 as [P1 P2]. apply Forall_cons_iff in P2 as [P3 P2].
  rewrite pendings_app, pendings_cons in I1. rewrite active_app, active_cons in I2. rewrite finished_app, finished_cons in I3.
  pose proof (active_nonneg p1) as A1. pose proof (active_nonneg p2) as A2.
  rewrite app_length in I8. cbn [length] in I8.
  destruct p as [us| |]; [|injection Ep as <- <-|discriminate Ep].
  - destruct us as [|k us].
    + injection Ep as <- <-. exists (p1 ++ PC :: p2). cbn [pend isU isD] in *. unfold exec. split; [now rewrite map_app|]. constructor; cbn [h_counter h_closes h_log].
      * rewrite pendings_app, pendings_cons. cbn [pend]. exact I1.
      * rewrite active_app, active_cons. cbn [isU]. lia.
      * rewrite finished_app, finished_cons. cbn [isD]. lia.
      * intros Hc. specialize (I4 Hc). lia.
      * intros _. right. apply in_app_iff. right. now left.
      * exact I6.
      * apply Forall_app. split; [assumption|]. now constructor.
      * rewrite app_length. cbn [length]. lia.
    + injection Ep as <- <-. exists (p1 ++ PU us :: p2). apply Forall_cons_iff in P3 as [Pk P3]. cbn [pend isU isD] in *. unfold sumZ in I1; cbn [fold_right] in I1; fold (sumZ us) in I1.
      assert (C0 : h_closes h = 0%nat). { destruct (Nat.eq_dec (h_closes h) 0) as [E|E]; [exact E|]. specialize (I4 E). lia. }
      unfold exec. split; [now rewrite map_app|]. constructor; cbn [h_counter h_closes h_log].
      * unfold received in *. cbn [map fst h_log]. rewrite pendings_app, pendings_cons. cbn [pend]. unfold sumZ at 1. cbn [fold_right]. fold (sumZ (map fst (h_log h))). lia.
      * rewrite active_app, active_cons. cbn [isU]. lia.
      * lia.
      * intros Hc. contradiction.
      * intros Hc. destruct (I5 Hc) as [E|E]; [now left|]. right. apply in_app_iff in E as [E|[E|E]]; [|discriminate E|]; apply in_app_iff; [now left|right; now right].
      * constructor; [now split|exact I6].
      * apply Forall_app. split; [assumption|]. now constructor.
      * rewrite app_length. cbn [length]. lia.
  - exists (p1 ++ PD :: p2). cbn [pend isU isD] in *. unfold exec. split; [now rewrite map_app|]. rewrite Hb.
    assert (E : forall A (x y : A), (if h_counter h =? N then x else y) = x /\ h_counter h = N \/ (if h_counter h =? N then x else y) = y /\ h_counter h <> N).
    { intros A x y. destruct (Z.eqb_spec (h_counter h) N); auto. }
    constructor; cbn [h_counter h_closes h_log].
    + rewrite pendings_app, pendings_cons. cbn [pend]. exact I1.
    + rewrite active_app, active_cons. cbn [isU]. lia.
    + rewrite finished_app, finished_cons. cbn [isD]. destruct (E _ (S (h_closes h)) (h_closes h)) as [[-> _]|[-> _]]; lia.
    + destruct (E _ (S (h_closes h)) (h_closes h)) as [[-> F]|[-> F]]; [now intros _|exact I4].
    + intros F. left. destruct (E _ (S (h_closes h)) (h_closes h)) as [[-> _]|[-> G]]; [discriminate|]. contradiction.
    + exact I6.
    + apply Forall_app. split; [assumption|]. now constructor.
    + rewrite app_length. cbn [length]. lia.
Qed.
Lemma steps_inv T N b : b_ncores b = N -> forall s s', steps b s s' -> forall ph, fst s = map prog ph -> inv T N ph (snd s) ->
  exists ph', fst s' = map prog ph' /\ inv T N ph' (snd s').
Proof.
  intros Hb s s' H. induction H as [s|s s' s'' H1 H2 IH]; intros ph Hs I; [eauto|].
  destruct s as [ws h], s' as [ws' h']. cbn [fst snd] in *. subst ws. destruct (step_inv T N b ph h ws' h' Hb I H1) as (ph' & -> & I'). apply (IH ph' eq_refl I').
Qed.

(** the program of one worker *)
Fixpoint tops (r : Z) (n : nat) : Z := match n with O => 0 | S m => tops r m + (if (Z.of_nat m + 1) mod r =? 0 then r else 0) end.
Lemma tops_eq r n : 1 <= r -> tops r n = Z.of_nat n - Z.of_nat n mod r.
Proof.
  intros Hr. induction n as [|n IH]; [cbn [tops]; change (Z.of_nat 0) with 0; rewrite Z.mod_0_l; lia|]. cbn [tops]. rewrite IH. rewrite Nat2Z.inj_succ. unfold Z.succ.
  pose proof (Z.mod_pos_bound (Z.of_nat n) r ltac:(lia)) as B. pose proof (Z.mod_pos_bound (Z.of_nat n + 1) r ltac:(lia)) as B'.
  pose proof (Z.div_mod (Z.of_nat n) r ltac:(lia)) as D. pose proof (Z.div_mod (Z.of_nat n + 1) r ltac:(lia)) as D'.
  set (q := Z.of_nat n / r) in *. set (q' := (Z.of_nat n + 1) / r) in *. set (m := Z.of_nat n mod r) in *. set (m' := (Z.of_nat n + 1) mod r) in *.
  destruct (Z.eqb_spec m' 0) as [E|E].
  - rewrite E in *. assert (q' = q + 1) by nia. nia.
  - assert (q' = q) by nia. nia.
Qed.
Lemma worker_updates b n : 1 <= b_rate b -> (forall i, (i < n)%nat -> Z.of_nat i + 1 <> b_single b) ->
  exists us, worker b n = map Update us /\ sumZ us = tops (b_rate b) n /\ Forall (fun k => 0 <= k) us.
Proof.
  intros Hr. induction n as [|n IH]; intros Hn; [exists []; repeat split; constructor|].
  destruct IH as (us & E & S & F); [intros i Hi; apply Hn; lia|]. unfold worker. rewrite seq_S, flat_map_app. fold (worker b n). rewrite E. cbn [flat_map Nat.add]. rewrite app_nil_r.
  unfold update_progress_bar. destruct (Z.eqb_spec (Z.of_nat n + 1) (b_single b)) as [X|_]; [now apply Hn in X; [|lia]|]. rewrite app_nil_r. cbn [tops].
  exists (us ++ (if Z.of_nat n + 1 =? 1 then [0] else []) ++ (if (Z.of_nat n + 1) mod b_rate b =? 0 then [b_rate b] else [])).
  destruct (Z.of_nat n + 1 =? 1), ((Z.of_nat n + 1) mod b_rate b =? 0); rewrite !map_app, !sumZ_app, S; (split; [reflexivity|]); (split; [cbn; lia|]); apply Forall_app; (split; [assumption|]); repeat constructor; lia.
Qed.
Lemma worker_prog neval ncores ur b : progress_bar_factory neval ncores ur = Ok b -> 1 <= ncores -> 1 <= neval ->
  exists us, worker b (Z.to_nat (neval / ncores)) = prog (PU us) /\ sumZ us = neval / ncores /\ Forall (fun k => 0 <= k) us.
Proof.
  unfold progress_bar_factory. intros H Hc Hn. destruct (ncores =? 0); [discriminate|]. destruct (Z.eqb_spec (neval mod ncores) 0) as [Hm|]; [|discriminate]. cbn [negb] in H.
  destruct (_ && _)%bool in H; [discriminate|]. injection H as <-.
  set (b := {| b_neval := neval |}). assert (Hs : 1 <= neval / ncores) by (pose proof (Z.div_mod neval ncores ltac:(lia)); nia).
  assert (Hr : 1 <= b_rate b) by (cbn; destruct (_ <? _); lia).
  destruct (Z.to_nat (neval / ncores)) as [|m] eqn:Em; [lia|].
  destruct (worker_updates b m Hr) as (us & E & S & F). { intros i Hi. cbn. lia. }
  unfold worker. rewrite seq_S, flat_map_app. fold (worker b m). rewrite E. cbn [flat_map Nat.add]. rewrite app_nil_r.
  unfold update_progress_bar. replace (Z.of_nat m + 1 =? b_single b) with true by (symmetry; apply Z.eqb_eq; cbn; lia).
  pose proof (tops_eq (b_rate b) (Datatypes.S m) Hr) as T. cbn [tops] in T. rewrite <- Em in T. rewrite Z2Nat.id in T by lia.
  exists (us ++ (if Z.of_nat m + 1 =? 1 then [0] else []) ++ (if (Z.of_nat m + 1) mod b_rate b =? 0 then [b_rate b] else []) ++ [b_rem b]).
  assert (Er : b_rem b = (neval / ncores) mod b_rate b) by reflexivity.
  pose proof (Z.mod_pos_bound (neval / ncores) (b_rate b) ltac:(lia)) as B.
  destruct (Z.of_nat m + 1 =? 1), ((Z.of_nat m + 1) mod b_rate b =? 0); unfold prog; rewrite !map_app, !sumZ_app, S, <- !app_assoc; (split; [reflexivity|]);
    (split; [unfold sumZ; cbn [fold_right]; lia|]); apply Forall_app; (split; [assumption|]); repeat constructor; lia.
Qed.

(** every reachable state satisfies the invariant *)
Lemma start_inv neval ncores ur b : progress_bar_factory neval ncores ur = Ok b -> 1 <= ncores -> 1 <= neval ->
  exists us, worker b (Z.to_nat (neval / ncores)) = prog (PU us) /\ b_ncores b = ncores /\
  inv neval ncores (repeat (PU us) (Z.to_nat ncores)) host0.
Proof.
  intros H Hc Hn. destruct (worker_prog _ _ _ _ H Hc Hn) as (us & E & S & F). exists us. split; [exact E|].
  assert (Hm : neval mod ncores = 0 /\ b_ncores b = ncores).
  { unfold progress_bar_factory in H. destruct (ncores =? 0); [discriminate|]. destruct (Z.eqb_spec (neval mod ncores) 0) as [Hm|]; [|discriminate]. cbn [negb] in H.
    destruct (_ && _)%bool in H; [discriminate|]. injection H as <-. now split. }
  destruct Hm as [Hm Hb]. split; [exact Hb|].
  assert (R : forall k, pendings (repeat (PU us) k) = Z.of_nat k * (neval / ncores) /\ active (repeat (PU us) k) = Z.of_nat k).
  { induction k as [|k [IH1 IH2]]; [split; reflexivity|]. cbn [repeat]. rewrite pendings_cons, active_cons, IH1, IH2. cbn [pend isU]. rewrite S. lia. }
  destruct (R (Z.to_nat ncores)) as [R1 R2]. rewrite Z2Nat.id in R1, R2 by lia. constructor; cbn [h_counter h_closes h_log host0].
  - rewrite R1. unfold received. cbn. pose proof (Z.div_mod neval ncores ltac:(lia)). lia.
  - lia.
  - lia.
  - now intros [].
  - lia.
  - constructor.
  - apply Forall_forall. intros p Hp. apply repeat_spec in Hp as ->. exact F.
  - rewrite repeat_length. lia.
Qed.
Lemma map_repeat {A B} (f : A -> B) x n : map f (repeat x n) = repeat (f x) n.
Proof. induction n; cbn; [reflexivity|]. now rewrite IHn. Qed.
Lemma reach_inv neval ncores ur b ws h : progress_bar_factory neval ncores ur = Ok b -> 1 <= ncores -> 1 <= neval ->
  steps b (repeat (worker b (Z.to_nat (neval / ncores))) (Z.to_nat ncores), host0) (ws, h) ->
  exists ph, ws = map prog ph /\ inv neval ncores ph h.
Proof.
  intros H Hc Hn Hs. destruct (start_inv _ _ _ _ H Hc Hn) as (us & E & Hb & I).
  destruct (steps_inv neval ncores b Hb _ _ Hs (repeat (PU us) (Z.to_nat ncores))) as (ph & Eph & I'); [cbn [fst]; now rewrite map_repeat, E|exact I|eauto].
Qed.

(** schedules *)
Lemma steps_trans b s s' s'' : steps b s s' -> steps b s' s'' -> steps b s s''.
Proof. induction 1; [easy|]. intros. econstructor; eauto. Qed.
Definition exec_all b h l := fold_left (exec b) l h.
Lemma steps_one b ws1 l w ws2 h : steps b (ws1 ++ (l ++ w) :: ws2, h) (ws1 ++ w :: ws2, exec_all b h l).
Proof.
  revert h. induction l as [|a l IH]; intros h; [constructor|]. cbn [app]. econstructor; [apply step_worker|apply IH].
Qed.
Lemma steps_each b l w k : forall ws1 h, steps b (ws1 ++ repeat (l ++ w) k, h) (ws1 ++ repeat w k, Nat.iter k (fun h => exec_all b h l) h).
Proof.
  induction k as [|k IH]; intros ws1 h; [constructor|]. cbn [repeat]. eapply steps_trans; [apply steps_one|].
  specialize (IH (ws1 ++ [w]) (exec_all b h l)). rewrite <- !app_assoc in IH. cbn [app] in IH.
  replace (Nat.iter (S k) (fun h => exec_all b h l) h) with (Nat.iter k (fun h => exec_all b h l) (exec_all b h l)); [exact IH|].
  clear. induction k as [|k IH]; [reflexivity|]. exact (f_equal (fun h => exec_all b h l) IH).
Qed.
