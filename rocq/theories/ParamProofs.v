From Verif Require Import RBase Param.

Lemma nudge_inside d lo hi : lo < hi -> lo <= d <= hi ->
  lo < nudge_max (nudge_min d lo hi false) lo hi false < hi.
Proof.
  intros H Hd. unfold nudge_max, nudge_min.
  assert (He : 0 < / 10 ^ 10 < 1 / 2).
  { split; [apply Rinv_0_lt_compat; lra|]. apply (Rmult_lt_reg_l (10 ^ 10)); [lra|]. rewrite Rinv_r; lra. }
  set (e := / 10 ^ 10) in *. clearbody e.
  destruct (Reqb_spec d lo); cbn [andb negb].
  - destruct (Reqb_spec (lo + e * (hi - lo)) hi); cbn [andb negb]; nra.
  - destruct (Reqb_spec d hi); cbn [andb negb]; nra.
Qed.
Lemma nudge_fixed d lo hi : nudge_max (nudge_min d lo hi true) lo hi true = d.
Proof. unfold nudge_max, nudge_min. rewrite !Bool.andb_false_r. reflexivity. Qed.
Lemma nudge_within d lo hi fx : lo < hi -> lo <= d <= hi ->
  lo <= nudge_max (nudge_min d lo hi fx) lo hi fx <= hi.
Proof.
  intros H Hd. destruct fx; [rewrite nudge_fixed; lra|].
  pose proof (nudge_inside d lo hi H Hd); lra.
Qed.

(** what a call of [check_and_set] does, in one lemma *)
Lemma check_spec s d mn mx fx s' e : check_and_set s d mn mx fx = (s', e) ->
  let dd := opt_or d (u_default s) in let lo := opt_or mn (u_min s) in
  let hi := opt_or mx (u_max s) in let f := opt_or fx (u_fixed s) in
  (e = Some ValueError /\ s' = s) \/
  (e = None /\ (u_log s = true -> 0 < lo) /\ lo < hi /\ lo <= dd <= hi /\
   s' = {| u_default := if is_some d then nudge_max (nudge_min dd lo hi f) lo hi f else u_default s;
           u_min := lo; u_max := hi; u_log := u_log s; u_fixed := u_fixed s;
           u_dist := if (is_some mn || is_some mx)%bool then {| d_log := u_log s; d_lo := lo; d_hi := hi |}
                     else u_dist s |}).
Proof.
  unfold check_and_set. intros H. cbv zeta in *.
  destruct (Rleb (opt_or mn (u_min s)) 0 && u_log s)%bool eqn:E1; [inversion H; auto|].
  destruct (Rleb_spec (opt_or mx (u_max s)) (opt_or mn (u_min s))) as [|E2]; [inversion H; auto|].
  destruct (Rltb_spec (opt_or d (u_default s)) (opt_or mn (u_min s))) as [|E3]; [inversion H; auto|].
  destruct (Rltb_spec (opt_or mx (u_max s)) (opt_or d (u_default s))) as [|E4]; [inversion H; auto|].
  right. inversion H; subst. split; [reflexivity|]. split; [|split; [lra|split; [lra|]]].
  - intros HL. rewrite HL, Bool.andb_true_r in E1. apply Rleb_false in E1. lra.
  - destruct mn, mx; reflexivity.
Qed.


Lemma assign_bounds v s o : bounds_ok s -> v = false -> bounds_ok (fst (uassign v s o)).
Proof.
  intros (H1 & H2 & H3 & H4 & H5) ->.
  destruct o as [x|x|x|b|b]; cbn [uassign].
  1-3: match goal with |- context [check_and_set ?a ?b ?c ?d ?e] =>
         destruct (check_and_set a b c d e) as [s' er] eqn:E; apply check_spec in E end;
       cbn in E; destruct E as [[_ ->]|(_ & HL & Hlt & Hd & ->)]; cbn; [repeat split; tauto|];
       unfold bounds_ok; cbn; repeat split; auto; try lra;
       try (apply nudge_within; lra).
  - destruct (Bool.eqb (u_log s) b); cbn; unfold bounds_ok; cbn; repeat split; auto; lra.
  - match goal with |- context [check_and_set ?a ?b ?c ?d ?e] =>
         destruct (check_and_set a b c d e) as [s' er] eqn:E; apply check_spec in E end.
    cbn in E. destruct E as [[_ ->]|(_ & HL & Hlt & Hd & ->)]; unfold bounds_ok; cbn; repeat split; auto; try lra;
    apply nudge_within; lra.
Qed.

Lemma run_bounds ops : forall s, bounds_ok s -> bounds_ok (urun false s ops).
Proof.
  induction ops as [|o ops IH]; cbn; intros s H; [exact H|].
  apply IH, assign_bounds; auto.
Qed.

Lemma init_spec d lo hi lg fx s : uinit d lo hi lg fx = Ok s ->
  (lg = true -> 0 < lo) /\ lo < hi /\ lo <= d <= hi /\
  s = {| u_default := nudge_max (nudge_min d lo hi fx) lo hi fx; u_min := lo; u_max := hi;
         u_log := lg; u_fixed := fx; u_dist := {| d_log := lg; d_lo := lo; d_hi := hi |} |}.
Proof.
  unfold uinit. intros H.
  match type of H with context [check_and_set ?a ?b ?c ?d ?e] =>
    destruct (check_and_set a b c d e) as [s1 er] eqn:E; apply check_spec in E end.
  cbn in E. destruct E as [[-> _]|(-> & HL & Hlt & Hd & ->)]; [discriminate|].
  cbn [d_lo d_hi u_dist] in H.
  destruct (Rleb lo d && Rleb d hi)%bool; [|discriminate].
  match type of H with context [check_and_set ?a ?b ?c ?d ?e] =>
    destruct (check_and_set a b c d e) as [s2 er] eqn:E; apply check_spec in E end.
  cbn in E. destruct E as [[-> _]|(-> & _ & _ & _ & ->)]; [discriminate|].
  inversion H; subst. repeat split; auto; lra.
Qed.

Lemma init_accepts d lo hi lg fx :
  (exists s, uinit d lo hi lg fx = Ok s) <-> (lg = true -> 0 < lo) /\ lo < hi /\ lo <= d <= hi.
Proof.
  split.
  - intros [s H]. apply init_spec in H. tauto.
  - intros (HL & Hlt & Hd). unfold uinit, check_and_set; cbn.
    assert (E1 : (Rleb lo 0 && lg)%bool = false).
    { destruct lg; [|apply Bool.andb_false_r]. rewrite Bool.andb_true_r. apply Rleb_false. auto. }
    assert (E2 : Rleb hi lo = false) by (apply Rleb_false; lra).
    assert (E3 : Rltb d lo = false) by (apply Rltb_false; lra).
    assert (E4 : Rltb hi d = false) by (apply Rltb_false; lra).
    rewrite E1, E2, E3, E4. cbn.
    assert (E5 : Rleb lo d = true) by (apply Rleb_true; lra).
    assert (E6 : Rleb d hi = true) by (apply Rleb_true; lra).
    rewrite E5, E6. cbn. eauto.
Qed.

Lemma init_ok d lo hi lg fx s : uinit d lo hi lg fx = Ok s ->
  bounds_ok s /\ log_ok s /\ strict_ok s.
Proof.
  intros H. apply init_spec in H. destruct H as (HL & Hlt & Hd & ->).
  repeat split; cbn; auto; try lra; try (apply nudge_within; lra).
  all: cbn in *; subst fx; now apply nudge_inside.
Qed.

(** an assignment that does not attack the log / strictness part of the invariant *)
Definition gentle (s : uparam) (o : uop) : Prop :=
  match o with
  | SetMin v => v <> u_default s
  | SetMax v => v <> u_default s
  | SetLog b => b = true -> 0 < u_min s
  | _ => True
  end.
Fixpoint gentle_run (s : uparam) (ops : list uop) : Prop :=
  match ops with
  | [] => True
  | o :: r => gentle s o /\ gentle_run (fst (uassign false s o)) r
  end.

Lemma assign_gentle s o : bounds_ok s -> log_ok s -> strict_ok s -> gentle s o ->
  log_ok (fst (uassign false s o)) /\ strict_ok (fst (uassign false s o)).
Proof.
  intros (H1 & H2 & _) HL HS G. unfold log_ok, strict_ok in *.
  destruct o as [x|x|x|b|b]; cbn [uassign].
  1-3: match goal with |- context [check_and_set ?a ?b ?c ?d ?e] =>
         destruct (check_and_set a b c d e) as [s' er] eqn:E; apply check_spec in E end;
       cbn in E, G; destruct E as [[_ ->]|(_ & HL' & Hlt & Hd & ->)]; cbn; [tauto|];
       split; auto; intros HF;
       try (rewrite HF; now apply nudge_inside); specialize (HS HF); lra.
  - cbn in G. destruct (Bool.eqb (u_log s) b); cbn; [tauto|]. split; auto.
  - match goal with |- context [check_and_set ?a ?b ?c ?d ?e] =>
         destruct (check_and_set a b c d e) as [s' er] eqn:E end.
    destruct er as [er|].
    + exfalso. unfold check_and_set in E; cbn in E.
      assert (E1 : (Rleb (u_min s) 0 && u_log s)%bool = false).
      { destruct (u_log s) eqn:EL; [|apply Bool.andb_false_r]. rewrite Bool.andb_true_r. apply Rleb_false; auto. }
      assert (E2 : Rleb (u_max s) (u_min s) = false) by (apply Rleb_false; lra).
      assert (E3 : Rltb (u_default s) (u_min s) = false) by (apply Rltb_false; lra).
      assert (E4 : Rltb (u_max s) (u_default s) = false) by (apply Rltb_false; lra).
      rewrite E1, E2, E3, E4 in E. discriminate.
    + apply check_spec in E. cbn in E. destruct E as [[E _]|(_ & HL' & Hlt & Hd & ->)]; [discriminate|].
      cbn. split; auto. intros ->. now apply nudge_inside.
Qed.

Lemma run_gentle ops : forall s, bounds_ok s -> log_ok s -> strict_ok s -> gentle_run s ops ->
  log_ok (urun false s ops) /\ strict_ok (urun false s ops).
Proof.
  induction ops as [|o ops IH]; cbn [gentle_run]; intros s HB HL HS G; [split; auto|].
  destruct G as [G1 G2]. destruct (assign_gentle s o HB HL HS G1) as [A B].
  apply IH; auto. apply assign_bounds; auto.
Qed.

(** C28 *)
Definition is_fixed_op (o : uop) := match o with SetFixed _ => true | _ => false end.
Lemma assign_atomic s o s' e : is_fixed_op o = false -> uassign false s o = (s', Some e) -> s' = s.
Proof.
  intros HF H. destruct o as [x|x|x|b|b]; cbn [uassign] in H; try discriminate HF.
  1-3: apply check_spec in H; cbn in H; destruct H as [[_ ->]|(E & _)]; [reflexivity|discriminate].
  destruct (Bool.eqb (u_log s) b); discriminate.
Qed.
(** the accepted assignments take effect and nothing else changes *)
Lemma assign_effect s o s' : bounds_ok s -> uassign false s o = (s', None) ->
  match o with
  | SetDefault v => u_min s' = u_min s /\ u_max s' = u_max s /\ u_log s' = u_log s /\ u_fixed s' = u_fixed s /\
                    (u_default s' = v \/ (u_fixed s = false /\ (v = u_min s \/ v = u_max s)))
  | SetMin v => u_min s' = v /\ u_default s' = u_default s /\ u_max s' = u_max s /\ u_log s' = u_log s /\ u_fixed s' = u_fixed s
  | SetMax v => u_max s' = v /\ u_default s' = u_default s /\ u_min s' = u_min s /\ u_log s' = u_log s /\ u_fixed s' = u_fixed s
  | SetLog b => u_log s' = b /\ u_default s' = u_default s /\ u_min s' = u_min s /\ u_max s' = u_max s /\ u_fixed s' = u_fixed s
  | SetFixed b => u_fixed s' = b /\ u_min s' = u_min s /\ u_max s' = u_max s /\ u_log s' = u_log s /\
                  (u_default s' = u_default s \/ (b = false /\ (u_default s = u_min s \/ u_default s = u_max s)))
  end.
Proof.
  intros HB H. destruct o as [x|x|x|b|b]; cbn [uassign] in H.
  1-3: apply check_spec in H; cbn in H; destruct H as [[E _]|(_ & _ & Hlt & Hd & ->)]; [discriminate|]; cbn; auto.
  - repeat split; auto. unfold nudge_max, nudge_min. destruct (u_fixed s); cbn [negb].
    + rewrite !Bool.andb_false_r. now left.
    + destruct (Reqb_spec x (u_min s)); [right; auto|]. cbn [andb].
      destruct (Reqb_spec x (u_max s)); [right; auto|]. now left.
  - destruct (Bool.eqb (u_log s) b) eqn:E; inversion H; subst; cbn; auto.
    apply Bool.eqb_prop in E. auto.
  - apply check_spec in H; cbn in H; destruct H as [[E _]|(_ & _ & Hlt & Hd & ->)]; [discriminate|]. cbn.
    repeat split; auto. unfold nudge_max, nudge_min. destruct b; cbn [negb].
    + rewrite !Bool.andb_false_r. now left.
    + destruct (Reqb_spec (u_default s) (u_min s)); [right; auto|]. cbn [andb].
      destruct (Reqb_spec (u_default s) (u_max s)); [right; auto|]. now left.
Qed.
