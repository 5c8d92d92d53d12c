(** C88: the ways to give a parameter to a spectral component. *)
From Coq Require Import Ascii String.
From Verif Require Import RBase Param ParamProofs Namespace NamespaceProofs HelperData HelperNames HelperNamesProofs ParamArg.
From Coq Require Import List Lia Lra.
Open Scope list_scope.
Open Scope R_scope.

(** ** Specification: default, minimum, maximum, logarithmic, fixed, as the documentation reads the argument *)
Definition flag (d : dict pv) (k : str) (b : bool) : Prop := get d k = Some (PBool b) \/ (get d k = None /\ b = false).
Inductive intended (c : pconfig) : parg -> R -> R -> R -> bool -> bool -> Prop :=
| I_none : intended c ANone (g_default c) (g_min c) (g_max c) (g_log c) (g_fixed c)
| I_number x : intended c (AScalar x) x (g_min c) (g_max c) (g_log c) true
| I_one x : intended c (ASeq [PNum x]) x (g_min c) (g_max c) (g_log c) (g_fixed c)
| I_three x lo hi : intended c (ASeq [PNum x; PNum lo; PNum hi]) x lo hi (g_log c) (g_fixed c)
| I_four x lo hi lg : intended c (ASeq [PNum x; PNum lo; PNum hi; PBool lg]) x lo hi lg (g_fixed c)
| I_map d x lo hi lg fx : get d (s2l "default") = Some (PNum x) -> get d (s2l "min") = Some (PNum lo) -> get d (s2l "max") = Some (PNum hi) ->
    flag d (s2l "log") lg -> flag d (s2l "fixed") fx -> intended c (AMap d) x lo hi lg fx.
Definition valid (x lo hi : R) (lg : bool) : Prop := (lg = true -> 0 < lo) /\ lo < hi /\ lo <= x <= hi.
(** a parameter with these settings: a free one that starts on a bound is moved inside by 1e-10 of its range *)
Definition has_settings (u : uparam) (x lo hi : R) (lg fx : bool) : Prop :=
  u_min u = lo /\ u_max u = hi /\ u_log u = lg /\ u_fixed u = fx /\ u_dist u = {| d_log := lg; d_lo := lo; d_hi := hi |} /\
  (fx = true \/ lo < x < hi -> u_default u = x) /\
  (fx = false -> x = lo -> u_default u = lo + / 10 ^ 10 * (hi - lo)) /\ (fx = false -> x = hi -> u_default u = hi - / 10 ^ 10 * (hi - lo)).

Lemma tiny : 0 < / 10 ^ 10 < 1.
Proof. split; [apply Rinv_0_lt_compat; lra|]. rewrite <- Rinv_1. apply Rinv_lt_contravar; lra. Qed.
Lemma uinit_settings x lo hi lg fx : valid x lo hi lg -> exists u, uinit x lo hi lg fx = Ok u /\ has_settings u x lo hi lg fx.
Proof.
  intros (HL & Hlt & Hx). destruct (proj2 (init_accepts x lo hi lg fx)) as (u & E); [auto|]. exists u. split; [exact E|].
  apply init_spec in E as (_ & _ & _ & ->). pose proof tiny as T. unfold has_settings, nudge_max, nudge_min. cbn [u_min u_max u_log u_fixed u_dist u_default].
  do 5 (split; [reflexivity|]). split; [|split].
  - intros [->|H]; [cbn [negb]; now rewrite !Bool.andb_false_r|]. destruct (Reqb_spec x lo); [lra|]. cbn [andb]. destruct (Reqb_spec x hi); [lra|reflexivity].
  - intros -> ->. cbn [negb]. destruct (Reqb_spec lo lo); [|easy]. cbn [andb]. destruct (Reqb_spec (lo + / 10 ^ 10 * (hi - lo)) hi) as [E|]; [|reflexivity].
    exfalso. assert (/ 10 ^ 10 * (hi - lo) < 1 * (hi - lo)) by (apply Rmult_lt_compat_r; lra). lra.
  - intros -> ->. cbn [negb]. destruct (Reqb_spec hi lo); [lra|]. cbn [andb]. destruct (Reqb_spec hi hi); [reflexivity|easy].
Qed.
Lemma uinit_invalid x lo hi lg fx : ~ valid x lo hi lg -> uinit x lo hi lg fx = Err ValueError.
Proof.
  intros H. destruct (uinit x lo hi lg fx) as [u|e] eqn:E.
  - exfalso. apply H. apply (proj1 (init_accepts x lo hi lg fx)). now exists u.
  - f_equal. revert E. unfold uinit, check_and_set. cbn.
    destruct (Rleb lo 0 && lg)%bool; [now intros [= <-]|]. destruct (Rleb hi lo); [now intros [= <-]|]. destruct (Rltb x lo); [now intros [= <-]|]. destruct (Rltb hi x); [now intros [= <-]|].
    cbn. destruct (Rleb lo x && Rleb x hi)%bool; [|now intros [= <-]]. discriminate.
Qed.
Lemma make_intended c a x lo hi lg fx : intended c a x lo hi lg fx -> make_param c a = bind (uinit x lo hi lg fx) (fun u => Ok (inl u)).
Proof.
  intros [ | y | y | y l h | y l h g | d y l h g f G1 G2 G3 G4 G5]; try reflexivity. cbn [make_param]. unfold k_default, k_min, k_max. rewrite G1, G2, G3.
  unfold new_uniform, getd, k_log, k_fixed. cbn [as_default as_bound].
  destruct G4 as [->|(-> & ->)], G5 as [->|(-> & ->)]; reflexivity.
Qed.

(** ** an argument in one of the documented forms makes a parameter with the documented settings, owned by this slot alone; anything out of range is
    refused and changes nothing; no other parameter of any component is touched *)
Theorem C88_forms : forall h cid c a x lo hi lg fx, intended c a x lo hi lg fx ->
  (valid x lo hi lg -> exists h' p u, set_param h cid c a = (h', None) /\ ph_slot h' cid (g_name c) = Some p /\ o_uni p = Some u /\ has_settings u x lo hi lg fx /\
     o_id p = ph_next h /\ ph_next h' = S (ph_next h) /\ ph_latex h' (o_id p) = g_latex c /\
     (forall cid' n, cid' <> cid \/ n <> g_name c -> ph_slot h' cid' n = ph_slot h cid' n) /\ (forall i, i <> ph_next h -> ph_latex h' i = ph_latex h i)) /\
  (~ valid x lo hi lg -> set_param h cid c a = (h, Some ValueError)).
Proof.
  intros h cid c a x lo hi lg fx I. assert (S : match a, ph_slot h cid (g_name c) with AParam p, Some q => Nat.eqb (o_id p) (o_id q) | _, _ => false end = false) by (destruct I; reflexivity).
  unfold set_param. rewrite S, (make_intended _ _ _ _ _ _ _ I). split; intros V.
  - destruct (uinit_settings _ _ _ _ fx V) as (u & E & HS). rewrite E. cbn [bind]. do 2 eexists. exists u. split; [reflexivity|]. cbn [ph_slot ph_latex ph_next].
    unfold set_slot, set_latex. rewrite Nat.eqb_refl. destruct (str_eqb_spec (g_name c) (g_name c)); [|easy]. cbn [andb]. split; [reflexivity|]. cbn [o_uni o_id]. split; [reflexivity|].
    split; [exact HS|]. split; [reflexivity|]. split; [reflexivity|]. rewrite Nat.eqb_refl. split; [reflexivity|]. split.
    + intros cid' n N. destruct (Nat.eqb_spec cid' cid) as [->|]; [|reflexivity]. destruct (str_eqb_spec n (g_name c)) as [->|]; [|reflexivity]. now destruct N.
    + intros i N. now destruct (Nat.eqb_spec i (ph_next h)).
  - now rewrite (uinit_invalid _ _ _ _ fx V).
Qed.
Print Assumptions C88_forms.

(** ** a parameter object is shared, not copied *)
Theorem C88_shared : forall h cid c p, exists h', set_param h cid c (AParam p) = (h', None) /\
  (exists q, ph_slot h' cid (g_name c) = Some q /\ o_id q = o_id p) /\
  (forall cid' n, cid' <> cid \/ n <> g_name c -> ph_slot h' cid' n = ph_slot h cid' n) /\
  ((forall q, ph_slot h cid (g_name c) = Some q -> o_id q <> o_id p) -> ph_latex h' (o_id p) = g_latex c /\ ph_slot h' cid (g_name c) = Some p) /\
  (forall i, i <> o_id p -> ph_latex h' i = ph_latex h i).
Proof.
  intros h cid c p. unfold set_param. destruct (ph_slot h cid (g_name c)) as [q|] eqn:Q; [destruct (Nat.eqb_spec (o_id p) (o_id q)) as [E|N]|].
  - exists h. split; [reflexivity|]. split; [now exists q|]. split; [reflexivity|]. split; [|reflexivity]. intros H. exfalso. now apply (H q).
  - cbn [make_param]. eexists. split; [reflexivity|]. cbn. unfold set_slot, set_latex. rewrite Nat.eqb_refl. destruct (str_eqb_spec (g_name c) (g_name c)); [|easy]. cbn [andb].
    split; [now exists p|]. split; [|split].
    + intros cid' n M. destruct (Nat.eqb_spec cid' cid) as [->|]; [|reflexivity]. destruct (str_eqb_spec n (g_name c)) as [->|]; [|reflexivity]. now destruct M.
    + intros _. now rewrite Nat.eqb_refl.
    + intros i M. now destruct (Nat.eqb_spec i (o_id p)).
  - cbn [make_param]. eexists. split; [reflexivity|]. cbn. unfold set_slot, set_latex. rewrite Nat.eqb_refl. destruct (str_eqb_spec (g_name c) (g_name c)); [|easy]. cbn [andb].
    split; [now exists p|]. split; [|split].
    + intros cid' n M. destruct (Nat.eqb_spec cid' cid) as [->|]; [|reflexivity]. destruct (str_eqb_spec n (g_name c)) as [->|]; [|reflexivity]. now destruct M.
    + intros _. now rewrite Nat.eqb_refl.
    + intros i M. now destruct (Nat.eqb_spec i (o_id p)).
Qed.
Print Assumptions C88_shared.

(** ** what is refused *)
Theorem C88_refused : forall h cid c,
  set_param h cid c AArray = (h, Some ValueError) /\ set_param h cid c AOther = (h, Some TypeError) /\
  (forall l, ~ In (length l) [1; 3; 4]%nat -> set_param h cid c (ASeq l) = (h, Some ValueError)) /\
  (forall d, get d (s2l "default") = None \/ get d (s2l "min") = None \/ get d (s2l "max") = None -> set_param h cid c (AMap d) = (h, Some ValueError)).
Proof.
  intros h cid c. split; [reflexivity|]. split; [reflexivity|]. split.
  - intros l H. unfold set_param. cbn [make_param].
    destruct l as [|a [|b [|d [|e [|f l]]]]]; try reflexivity; exfalso; apply H; cbn; auto.
  - intros d H. unfold set_param. cbn [make_param]. unfold k_default, k_min, k_max. destruct H as [-> | [-> | ->]]; [reflexivity| |].
    + now destruct (get d (s2l "default")).
    + destruct (get d (s2l "default")); [|reflexivity]. now destruct (get d (s2l "min")).
Qed.
Print Assumptions C88_refused.
Lemma set_param_err h cid c a h' e : set_param h cid c a = (h', Some e) -> h' = h.
Proof.
  unfold set_param. destruct (match a with AParam p => _ | _ => _ end); [discriminate|]. destruct (make_param c a) as [[u|p]|]; [discriminate|discriminate|]. intros H. now injection H as -> _.
Qed.
(** whatever raises changes nothing, and unknown names are refused *)
Theorem C88_atomic : forall cfgs attrs h o h' e, sop_step cfgs attrs h o = (h', Some e) -> h' = h.
Proof.
  intros cfgs attrs h [cid k a|cid k a] h' e; cbn [sop_step]; unfold comp_setitem, comp_setattr; destruct (find_cfg (cfgs cid) k) as [c|].
  - apply set_param_err.
  - intros H. now injection H as -> _.
  - apply set_param_err.
  - destruct (mem k attrs); [discriminate|]. intros H. now injection H as -> _.
Qed.
Print Assumptions C88_atomic.
Theorem C88_unknown : forall cfgs attrs h cid k a, ~ In k (map g_name (cfgs cid)) ->
  sop_step cfgs attrs h (SSetItem cid k a) = (h, Some KeyError) /\ comp_get h cid (cfgs cid) k = Err KeyError /\
  (~ In k attrs -> sop_step cfgs attrs h (SSetAttr cid k a) = (h, Some AttributeError)).
Proof.
  intros cfgs attrs h cid k a H. assert (F : find_cfg (cfgs cid) k = None).
  { unfold find_cfg. destruct (find _ (cfgs cid)) as [c|] eqn:F; [|reflexivity]. exfalso. apply find_some in F as (I & E).
    destruct (str_eqb_spec k (g_name c)) as [->|]; [|discriminate]. now apply H, in_map. }
  cbn [sop_step]. unfold comp_setitem, comp_get, comp_setattr. rewrite F. split; [reflexivity|]. split; [reflexivity|]. intros M.
  destruct (mem k attrs) eqn:E; [|reflexivity]. now apply mem_spec in E.
Qed.
Print Assumptions C88_unknown.

(** ** sessions: as long as the given parameter objects are sound, every parameter of every component is: bounds in order, default strictly inside when
    free, minimum positive when logarithmic, and the distribution built from these settings *)
Definition sound (p : pobj) : Prop := forall u, o_uni p = Some u -> bounds_ok u /\ log_ok u /\ strict_ok u.
Definition sound_arg (a : parg) : Prop := match a with AParam p => sound p | _ => True end.
Definition op_arg (o : sop) : parg := match o with SSetItem _ _ a | SSetAttr _ _ a => a end.
Definition all_sound (h : pheap) : Prop := forall cid n p, ph_slot h cid n = Some p -> sound p.
Lemma make_sound c a r : make_param c a = Ok r -> match r with inl u => bounds_ok u /\ log_ok u /\ strict_ok u | inr p => a = AParam p end.
Proof.
  assert (U : forall d lo hi lg fx r, bind (uinit d lo hi lg fx) (fun u => Ok (inl u)) = Ok r -> match r with inl u => bounds_ok u /\ log_ok u /\ strict_ok u | inr p => a = AParam p end).
  { intros d lo hi lg fx r' H. destruct (uinit d lo hi lg fx) as [u|] eqn:E; [|discriminate]. cbn in H. injection H as <-. now apply init_ok in E. }
  assert (W : forall d lo hi lg fx r, bind (new_uniform d lo hi lg fx) (fun u => Ok (inl u)) = Ok r -> match r with inl u => bounds_ok u /\ log_ok u /\ strict_ok u | inr p => a = AParam p end).
  { intros d lo hi lg fx r' H. unfold new_uniform in H. destruct (as_flag lg); [|discriminate]. destruct (as_default d); [|discriminate]. destruct (as_bound lo); [|discriminate].
    destruct (as_bound hi); [|discriminate]. destruct (as_flag fx); [|discriminate]. cbn [bind] in H. now apply U in H. }
  intros H. destruct a as [|x| |p|d|l|]; cbn [make_param] in H; try discriminate.
  - now apply U in H.
  - now apply U in H.
  - injection H as <-. reflexivity.
  - destruct (get d k_default); [|discriminate]. destruct (get d k_min); [|discriminate]. destruct (get d k_max); [|discriminate]. now apply W in H.
  - destruct l as [|a [|b [|d [|e [|f l]]]]]; try discriminate; now apply W in H.
Qed.
Lemma set_param_sound h cid c a : all_sound h -> sound_arg a -> all_sound (fst (set_param h cid c a)).
Proof.
  intros H A. unfold set_param. destruct (match a with AParam p => _ | _ => _ end); [exact H|]. destruct (make_param c a) as [[u|p]|] eqn:E; [| |exact H]; apply make_sound in E; cbn [fst].
  - intros cid' n p. cbn [ph_slot]. unfold set_slot. destruct (Nat.eqb cid' cid && str_eqb n (g_name c))%bool; [|apply H]. intros [= <-] v [= <-]. exact E.
  - subst a. intros cid' n q. cbn [ph_slot]. unfold set_slot. destruct (Nat.eqb cid' cid && str_eqb n (g_name c))%bool; [|apply H]. intros [= <-]. exact A.
Qed.
Theorem C88_session : forall cfgs attrs h ops, all_sound h -> Forall (fun o => sound_arg (op_arg o)) ops -> all_sound (srun cfgs attrs h ops).
Proof.
  intros cfgs attrs h ops. revert h. induction ops as [|o ops IH]; intros h H F; [exact H|]. inversion F; subst. cbn [srun fold_left]. apply IH; [|assumption].
  destruct o as [cid k a|cid k a]; cbn [sop_step op_arg] in *; unfold comp_setitem, comp_setattr; destruct (find_cfg (cfgs cid) k); try (now apply set_param_sound); try exact H.
  now destruct (mem k attrs).
Qed.
Print Assumptions C88_session.
(** ** construction: a component whose arguments are all absent gets its configuration, parameter by parameter *)
Theorem C88_defaults : forall cfgs h cid, NoDup (map g_name cfgs) -> Forall (fun c => valid (g_default c) (g_min c) (g_max c) (g_log c)) cfgs ->
  exists h', init_params h cid cfgs [] = (h', None) /\
  (forall c, In c cfgs -> exists p u, ph_slot h' cid (g_name c) = Some p /\ o_uni p = Some u /\ has_settings u (g_default c) (g_min c) (g_max c) (g_log c) (g_fixed c)) /\
  (forall cid' n, cid' <> cid \/ ~ In n (map g_name cfgs) -> ph_slot h' cid' n = ph_slot h cid' n).
Proof.
  intros cfgs h cid N F. revert h. induction F as [|c r V F IH]; intros h; [exists h; split; [reflexivity|]; split; [intros c []|reflexivity]|].
  cbn [map] in N. inversion N as [|? ? Nc Nr]; subst. cbn [init_params getd get]. change (getd [] (g_name c) ANone) with ANone.
  destruct (proj1 (C88_forms h cid c ANone _ _ _ _ _ (I_none c)) V) as (h1 & p & u & E & Hp & Hu & HS & _ & _ & _ & Fr & _). rewrite E.
  destruct (IH Nr h1) as (h' & E' & Hc & Fr'). exists h'. split; [exact E'|]. split.
  - intros c' [<-|I]; [|now apply Hc]. exists p, u. rewrite Fr' by (now right). auto.
  - intros cid' n H. cbn [map In] in H. rewrite Fr' by tauto. apply Fr. destruct H as [H|H]; [now left|right; intros ->; apply H; now left].
Qed.
Print Assumptions C88_defaults.

(** ** what users may not expect *)
(** a mapping without [log] and [fixed] makes a free linear parameter, whatever the component's own configuration says; sequences keep it *)
Theorem C88_mapping_forgets_refuted : exists c x lo hi u v, g_log c = true /\
  make_param c (AMap [(s2l "default", PNum x); (s2l "min", PNum lo); (s2l "max", PNum hi)]) = Ok (inl u) /\ u_log u = false /\
  make_param c (ASeq [PNum x; PNum lo; PNum hi]) = Ok (inl v) /\ u_log v = true.
Proof.
  exists {| g_name := s2l "K"; g_latex := s2l "K"; g_default := 1; g_min := 1 / 10; g_max := 10; g_log := true; g_fixed := false |}, 1, (1 / 10), 10.
  destruct (uinit_settings 1 (1 / 10) 10 false false) as (u & E & H); [repeat split; try lra; discriminate|].
  destruct (uinit_settings 1 (1 / 10) 10 true false) as (v & E' & H'); [repeat split; lra|].
  exists u, v. split; [reflexivity|]. cbn [make_param]. cbn -[uinit]. rewrite E, E'. split; [reflexivity|]. split; [apply H|]. split; [reflexivity|apply H'].
Qed.
Print Assumptions C88_mapping_forgets_refuted.
(** giving a parameter of one component to another renames it everywhere: the first component then shows the LaTeX of the second *)
Theorem C88_latex_refuted : exists h cid c cid' c' p h', ph_slot h cid (g_name c) = Some p /\ ph_latex h (o_id p) = g_latex c /\ cid' <> cid /\
  set_param h cid' c' (AParam p) = (h', None) /\ ph_slot h' cid (g_name c) = Some p /\ ph_latex h' (o_id p) <> g_latex c.
Proof.
  set (c := {| g_name := s2l "K"; g_latex := s2l "K"; g_default := 1; g_min := 0; g_max := 10; g_log := false; g_fixed := false |}).
  set (c' := {| g_name := s2l "norm"; g_latex := s2l "A"; g_default := 1; g_min := 0; g_max := 10; g_log := false; g_fixed := false |}).
  set (p := {| o_id := 0%nat; o_uni := None |}).
  exists {| ph_slot := fun i n => if Nat.eqb i 1 then if str_eqb n (g_name c) then Some p else None else None; ph_latex := fun _ => s2l "K"; ph_next := 1%nat |}, 1%nat, c, 2%nat, c', p.
  eexists. split; [reflexivity|]. split; [reflexivity|]. split; [lia|]. split; [reflexivity|]. split; [reflexivity|]. discriminate.
Qed.
Print Assumptions C88_latex_refuted.
(** the hypotheses are met: a power law with a given range for its index *)
Example C88_case : intended {| g_name := s2l "alpha"; g_latex := s2l "alpha"; g_default := 1; g_min := -3; g_max := 10; g_log := false; g_fixed := false |}
  (ASeq [PNum 1; PNum (-2); PNum 3]) 1 (-2) 3 false false /\ valid 1 (-2) 3 false.
Proof. split; [apply (I_three {| g_name := s2l "alpha"; g_latex := s2l "alpha"; g_default := 1; g_min := -3; g_max := 10; g_log := false; g_fixed := false |})|]. repeat split; try lra; discriminate. Qed.
