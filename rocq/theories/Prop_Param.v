(** C27-C29 *)
From Verif Require Import RBase Param ParamProofs Expr ExprFacts Composite CompositeProofs.

(** ** C27.  [bounds_ok]: min < max, min <= default <= max, and the distribution handed
    to the sampler carries the current log flag and bounds. *)
Theorem C27_init : forall d lo hi lg fx,
  ((exists s, uinit d lo hi lg fx = Ok s) <-> (lg = true -> 0 < lo) /\ lo < hi /\ lo <= d <= hi) /\
  (forall s, uinit d lo hi lg fx = Ok s -> bounds_ok s /\ log_ok s /\ strict_ok s).
Proof. intros. split; [apply init_accepts|apply init_ok]. Qed.
Print Assumptions C27_init.

(** every history of successful and rejected assignments *)
Theorem C27_bounds_invariant : forall d lo hi lg fx s ops,
  uinit d lo hi lg fx = Ok s -> bounds_ok (urun false s ops).
Proof. intros d lo hi lg fx s ops H. apply run_bounds, (init_ok _ _ _ _ _ _ H). Qed.
Print Assumptions C27_bounds_invariant.

(** False as stated: assigning [min] the value of [default] leaves a free parameter
    on its bound, and [log = True] is accepted with a negative minimum. *)
Theorem C27_strict_refuted : exists s o s', uinit 5 0 10 false false = Ok s /\
  uassign false s o = (s', None) /\ ~ strict_ok s'.
Proof.
  destruct (proj2 (init_accepts 5 0 10 false false)) as [s H]; [repeat split; try lra; discriminate|].
  exists s. pose proof (init_spec _ _ _ _ _ _ H) as (_ & _ & _ & Hs).
  assert (E : u_default s = 5).
  { subst s. cbn [u_default]. unfold nudge_max, nudge_min. destruct (Reqb_spec 5 0); [lra|]. cbn [andb].
    destruct (Reqb_spec 5 10); [lra|]. reflexivity. }
  exists (SetMin 5).
  destruct (uassign false s (SetMin 5)) as [s' [e|]] eqn:A.
  - exfalso. cbn [uassign] in A. unfold check_and_set in A. cbn in A. rewrite E in A.
    replace (u_log s) with false in A by now subst s. rewrite Bool.andb_false_r in A.
    replace (u_max s) with 10 in A by now subst s.
    destruct (Rleb_spec 10 5); [lra|]. destruct (Rltb_spec 5 5); [lra|]. destruct (Rltb_spec 10 5); [lra|]. discriminate.
  - exists s'. split; [exact H|]. split; [reflexivity|].
    pose proof (assign_effect s (SetMin 5) s' (proj1 (init_ok _ _ _ _ _ _ H)) A) as (E1 & E2 & _ & _ & E3).
    intros HS. unfold strict_ok in HS. rewrite E1, E2, E3 in HS. replace (u_fixed s) with false in HS by now subst s.
    specialize (HS eq_refl). lra.
Qed.
Print Assumptions C27_strict_refuted.
Theorem C27_log_refuted : exists s s', uinit 1 (-1) 2 false false = Ok s /\
  uassign false s (SetLog true) = (s', None) /\ u_log s' = true /\ u_min s' = -1.
Proof.
  destruct (proj2 (init_accepts 1 (-1) 2 false false)) as [s H]; [repeat split; try lra; discriminate|].
  exists s. pose proof (init_spec _ _ _ _ _ _ H) as (_ & _ & _ & Hs).
  eexists. split; [exact H|]. cbn [uassign]. replace (u_log s) with false by now subst s. cbn [Bool.eqb].
  cbn [andb]. split; [reflexivity|]. split; [reflexivity|]. now subst s.
Qed.
Print Assumptions C27_log_refuted.

(** What holds: as long as no assignment puts a bound exactly on the default or
    switches [log] on with a non-positive minimum ([gentle_run]), the full invariant
    survives every history.  Missing from C27: exactly these two assignments, which
    the code accepts. *)
Theorem C27_invariant_partial : forall d lo hi lg fx s ops,
  uinit d lo hi lg fx = Ok s -> gentle_run s ops ->
  bounds_ok (urun false s ops) /\ log_ok (urun false s ops) /\ strict_ok (urun false s ops).
Proof.
  intros d lo hi lg fx s ops H G. destruct (init_ok _ _ _ _ _ _ H) as (A & B & C).
  split; [now apply run_bounds|]. now apply run_gentle.
Qed.
Print Assumptions C27_invariant_partial.
Ltac step_real := repeat match goal with
  | |- context [Rleb ?a ?b] => first [replace (Rleb a b) with true by (symmetry; apply Rleb_true; lra)
                                     |replace (Rleb a b) with false by (symmetry; apply Rleb_false; lra)]
  | |- context [Rltb ?a ?b] => first [replace (Rltb a b) with true by (symmetry; apply Rltb_true; lra)
                                     |replace (Rltb a b) with false by (symmetry; apply Rltb_false; lra)]
  end.
Lemma ex_nudge_free : nudge_max (nudge_min 1 (1/2) 2 false) (1/2) 2 false = 1.
Proof.
  unfold nudge_max, nudge_min. destruct (Reqb_spec 1 (1/2)); [lra|]. cbn [andb].
  destruct (Reqb_spec 1 2); [lra|]. reflexivity.
Qed.
Definition exst (d hi : R) (fx : bool) : uparam :=
  {| u_default := d; u_min := 1/2; u_max := hi; u_log := true; u_fixed := fx;
     u_dist := {| d_log := true; d_lo := 1/2; d_hi := hi |} |}.
Example C27_ex : exists s, uinit 1 (1/2) 2 true false = Ok s /\
  gentle_run s [SetMin (-1); SetMax 3; SetFixed true; SetDefault 3].
Proof.
  destruct (proj2 (init_accepts 1 (1/2) 2 true false)) as [s H]; [repeat split; try lra|].
  exists s. split; [exact H|]. pose proof (init_spec _ _ _ _ _ _ H) as (_ & _ & _ & Hs).
  rewrite ex_nudge_free in Hs. assert (Hs' : s = exst 1 2 false) by exact Hs. clear Hs H. subst s.
  assert (S1 : fst (uassign false (exst 1 2 false) (SetMin (-1))) = exst 1 2 false).
  { cbn [uassign]. unfold check_and_set; cbn [opt_or u_log u_min u_max u_default u_fixed u_dist is_some exst]. step_real. reflexivity. }
  assert (S2 : fst (uassign false (exst 1 2 false) (SetMax 3)) = exst 1 3 false).
  { cbn [uassign]. unfold check_and_set; cbn [opt_or u_log u_min u_max u_default u_fixed u_dist is_some exst]. step_real. reflexivity. }
  assert (S3 : fst (uassign false (exst 1 3 false) (SetFixed true)) = exst 1 3 true).
  { cbn [uassign]. unfold check_and_set; cbn [opt_or u_log u_min u_max u_default u_fixed u_dist is_some exst]. step_real.
    cbn [andb orb fst]. rewrite nudge_fixed. reflexivity. }
  cbn [gentle_run]. rewrite S1, S2, S3. cbn [gentle exst u_default u_min]. repeat split; lra.
Qed.

(** ** C28 *)
Theorem C28_rejected_assignment_is_noop : forall s o s' e,
  is_fixed_op o = false -> uassign false s o = (s', Some e) -> s' = s.
Proof. exact assign_atomic. Qed.
Print Assumptions C28_rejected_assignment_is_noop.
(** and an accepted one changes the assigned attribute only *)
Theorem C28_accepted_assignment_effect : forall s o s', bounds_ok s -> uassign false s o = (s', None) ->
  match o with
  | SetDefault v => u_min s' = u_min s /\ u_max s' = u_max s /\ u_log s' = u_log s /\ u_fixed s' = u_fixed s /\
                    (u_default s' = v \/ (u_fixed s = false /\ (v = u_min s \/ v = u_max s)))
  | SetMin v => u_min s' = v /\ u_default s' = u_default s /\ u_max s' = u_max s /\ u_log s' = u_log s /\ u_fixed s' = u_fixed s
  | SetMax v => u_max s' = v /\ u_default s' = u_default s /\ u_min s' = u_min s /\ u_log s' = u_log s /\ u_fixed s' = u_fixed s
  | SetLog b => u_log s' = b /\ u_default s' = u_default s /\ u_min s' = u_min s /\ u_max s' = u_max s /\ u_fixed s' = u_fixed s
  | SetFixed b => u_fixed s' = b /\ u_min s' = u_min s /\ u_max s' = u_max s /\ u_log s' = u_log s /\
                  (u_default s' = u_default s \/ (b = false /\ (u_default s = u_min s \/ u_default s = u_max s)))
  end.
Proof. exact assign_effect. Qed.
Print Assumptions C28_accepted_assignment_effect.
(** With numpyro's argument validation switched on the [log] setter is not atomic:
    it raises after having changed [log]. *)
Theorem C28_log_with_validation_refuted : exists s s', uinit 1 (-1) 2 false false = Ok s /\
  uassign true s (SetLog true) = (s', Some ValueError) /\ u_log s = false /\ u_log s' = true.
Proof.
  destruct (proj2 (init_accepts 1 (-1) 2 false false)) as [s H]; [repeat split; try lra; discriminate|].
  exists s. pose proof (init_spec _ _ _ _ _ _ H) as (_ & _ & _ & Hs).
  eexists. split; [exact H|]. cbn [uassign]. replace (u_log s) with false by now subst s. cbn [Bool.eqb andb].
  replace (u_min s) with (-1) by now subst s. destruct (Rleb_spec (-1) 0); [|lra]. cbn [andb]. repeat split.
Qed.
Print Assumptions C28_log_with_validation_refuted.
Example C28_ex : exists s, uinit 5 0 10 false false = Ok s /\ uassign false s (SetMax (-1)) = (s, Some ValueError).
Proof.
  destruct (proj2 (init_accepts 5 0 10 false false)) as [s H]; [repeat split; try lra; discriminate|].
  exists s. split; [exact H|]. pose proof (init_spec _ _ _ _ _ _ H) as (_ & _ & _ & Hs).
  cbn [uassign]. unfold check_and_set; cbn. replace (u_log s) with false by now subst s. rewrite Bool.andb_false_r.
  replace (u_min s) with 0 by now subst s. destruct (Rleb_spec (-1) 0); [reflexivity|lra].
Qed.

(** ** C29.  [v] gives the value of every base parameter by its printed name;
    [pw] and [fn] (power and user functions) are arbitrary.  Reading the printed name
    succeeds, its result is unique, and evaluates to the composite's value. *)
Theorem C29_name_denotes_value : forall (pw : R -> R -> R) (fn : string -> list R -> R)
    (bn : nat -> string) (env : string -> R) (m : nat -> option R) (dflt : nat -> R) (p : param),
  (forall id, In id (nodes p) -> env (bn id) = match m id with Some v => v | None => dflt id end) ->
  exists e, reads (label bn (fun _ => None) p) e /\
            (forall e', reads (label bn (fun _ => None) p) e' -> e' = e) /\
            eval (Ralg pw fn) env e = pvalue (Ralg pw fn) m dflt p.
Proof.
  intros pw fn bn env m dflt p H.
  destruct (label_reads (Ralg pw fn) (Ralg_laws pw fn) bn (fun _ => None) env m dflt p) as (e & He & Hv).
  { apply consistent_none. intros id Hid. apply H. now apply nodes_spec. }
  exists e. split; [exact He|]. split; [|exact Hv]. intros e' He'. now apply (reads_det _ _ _ He').
Qed.
Print Assumptions C29_name_denotes_value.
(** the same when some composites are printed by the name of the component parameter
    they are assigned to *)
Theorem C29_table_entry_denotes_value : forall (pw : R -> R -> R) (fn : string -> list R -> R)
    (bn : nat -> string) (cn : nat -> option string) (env : string -> R) m dflt p,
  consistent (Ralg pw fn) bn cn env m dflt p ->
  exists e, reads (label bn cn p) e /\ eval (Ralg pw fn) env e = pvalue (Ralg pw fn) m dflt p.
Proof. intros pw fn bn cn env m dflt p. apply label_reads, Ralg_laws. Qed.
Print Assumptions C29_table_entry_denotes_value.
(** every base parameter is listed once *)
Theorem C29_nodes : forall p, NoDup (nodes p) /\ (forall x, In x (nodes p) <-> In x (leaves p)).
Proof. exact nodes_spec. Qed.
Print Assumptions C29_nodes.

Open Scope string_scope.
Definition nm (i : nat) : string := match i with 0 => "a" | 1 => "b" | 2 => "c" | _ => "d" end.
Example C29_ex1 : (* a - (b + c) / (d * a) *)
  label nm (fun _ => None) (PBin 10 Sub (PBase 0) (PBin 11 Div (PBin 12 Add (PBase 1) (PBase 2)) (PBin 13 Mul (PBase 3) (PBase 0))))
  = [TName "a"; TSub; TL; TName "b"; TAdd; TName "c"; TR; TDiv; TL; TName "d"; TMul; TName "a"; TR].
Proof. reflexivity. Qed.
Example C29_ex2 : (* a * (b / c) is printed a * b / (c): read as (a * b) / c *)
  pE 50 (label nm (fun _ => None) (PBin 10 Mul (PBase 0) (PBin 11 Div (PBase 1) (PBase 2))))
  = Some (EBin Div (EBin Mul (EVar "a") (EVar "b")) (EVar "c"), []).
Proof. reflexivity. Qed.
Example C29_ex3 : (* a - (b - c) keeps its parentheses *)
  pE 50 (label nm (fun _ => None) (PBin 10 Sub (PBase 0) (PBin 11 Sub (PBase 1) (PBase 2))))
  = Some (EBin Sub (EVar "a") (EBin Sub (EVar "b") (EVar "c")), []).
Proof. reflexivity. Qed.
