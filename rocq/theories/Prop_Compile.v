(** C34, C35: parameter assignment, [get_model_info] and compiled models. *)
From Verif Require Import Base Expr Composite CompositeProofs Namespace NamespaceProofs ModelInfo ModelInfoProofs ModelInfoProofs2 CompileProofs.
From Coq Require Import Ascii List.
Import ListNotations.
Open Scope list_scope.

(** ** specification *)
(** value of a parameter object, given the values of the base parameters *)
Fixpoint psem {V} (A : alg V) (env : nat -> V) (p : param) : V :=
  match p with
  | PBase i => env i
  | PBin _ o l r => op2 A o (psem A env l) (psem A env r)
  | PFun _ f args => Expr.app A f (map (psem A env) args)
  end.
(** [i] is one of the base parameters the model depends on *)
Definition uses (h : heap) (comps : list comp) (i : nat) : Prop :=
  exists s p, In s (slots_of comps) /\ h_slot h s = Some p /\ part (PBase i) p.
(** the role of a parameter object *)
Definition role (kind : nat -> pkind) (p : param) (c : psetup) : Prop :=
  let some k := exists i, part (PBase i) p /\ kind i = k in
  match c with
  | Forwarded => False
  | Integrated => some KInterval
  | Fixed => ~ some KInterval /\ ~ some KFree
  | Composed => ~ some KInterval /\ some KFree /\ is_comp p = true
  | Free => exists i, p = PBase i /\ kind i = KFree
  end.
Definition label (cname : nat -> str) (s : slot) : str := dotted (cname (fst s)) (snd s).

(** a python session that ends in heap [h] and a model made of components [comps]:
    every assignment went through the setter, objects with one identity are one object,
    and no component was created at the address of a dropped one *)
Record session (ops : list hop) (h : heap) (comps : list comp) : Prop := {
  se_run : hrun hempty ops = Ok h;
  se_objects : coherent (ops_params ops);
  se_reuse : no_reuse [] ops;
  se_model : model_ok h comps;
  se_live : forall c, In c comps -> ~ In (HDrop (c_id c)) ops }.
(** names that the user chooses *)
Record good_names (bname cname : nat -> str) (comps : list comp) : Prop := {
  gn_comp : forall c c', In c comps -> In c' comps -> cname (c_id c) = cname (c_id c') -> c_id c = c_id c';
  gn_par : forall c n, In c comps -> In n (c_params c) -> ~ In dot n;
  gn_base : forall i, ~ ends_with_prime (bname i) /\ ~ In dot (bname i) }.

(** ** proofs *)
Lemma session_inv ops h comps : session ops h comps ->
  exists dead, hinv (ops_params ops) dead h /\ forall c, In c comps -> ~ In (c_id c) dead.
Proof.
  intros [R O U M L]. destruct (hrun_inv (ops_params ops) ops [] hempty O (hempty_inv _) (fun x Hx => Hx) U) as (h' & dead & E & I & D).
  assert (h' = h) by congruence. subst h'. exists dead. split; [exact I|]. intros c Hc K. apply D in K as [[]|K]. exact (L c Hc K).
Qed.
Lemma psem_pvalue {V} (A : alg V) env m d p : (forall i, In i (leaves p) -> match m i with Some v => v | None => d i end = env i) ->
  pvalue A m d p = psem A env p.
Proof.
  induction p as [i|i o l r IHl IHr|i f args IH] using param_ind'; cbn [pvalue psem leaves]; intros H.
  - apply H. now left.
  - rewrite IHl, IHr; [reflexivity|intros j Hj; apply H, in_app_iff; tauto..].
  - f_equal. apply map_ext_in. intros a Ha. rewrite Forall_forall in IH. apply IH; [exact Ha|]. intros j Hj. apply H. apply in_flat_map. now exists a.
Qed.
Lemma pinterval_iff kind p : pinterval kind p = true <-> exists i, part (PBase i) p /\ kind i = KInterval.
Proof.
  transitivity (exists i, In i (leaves p) /\ kind i = KInterval); [|split; intros (i & H & K); exists i; [now rewrite part_leaf|now rewrite part_leaf in H]].
  induction p as [i|i o l r IHl IHr|i f args IH] using param_ind'; cbn [pinterval leaves].
  - split; [destruct (kind i) eqn:E; try discriminate; intros _; exists i; split; [now left|exact E]|]. intros (j & [<-|[]] & ->). reflexivity.
  - rewrite orb_true_iff, IHl, IHr. split.
    + intros [(j & H & K)|(j & H & K)]; exists j; rewrite in_app_iff; tauto.
    + intros (j & H & K). apply in_app_iff in H as [H|H]; [left|right]; now exists j.
  - rewrite existsb_exists. rewrite Forall_forall in IH. split.
    + intros (a & Ha & H). apply (IH a Ha) in H as (j & H & K). exists j. rewrite in_flat_map. split; [now exists a|exact K].
    + intros (j & H & K). apply in_flat_map in H as (a & Ha & H). exists a. split; [exact Ha|]. apply (IH a Ha). now exists j.
Qed.
Lemma pfixed_iff kind p : pfixed kind p = true <-> ~ exists i, part (PBase i) p /\ kind i = KFree.
Proof.
  transitivity (~ exists i, In i (leaves p) /\ kind i = KFree).
  2:{ split; intros N (i & H & K); apply N; exists i; [now rewrite <- part_leaf|now rewrite part_leaf]. }
  induction p as [i|i o l r IHl IHr|i f args IH] using param_ind'; cbn [pfixed leaves].
  - destruct (kind i) eqn:E; split; try discriminate; try reflexivity.
    + intros N. contradiction N. exists i. split; [now left|exact E].
    + intros _ (j & [<-|[]] & K). congruence.
    + intros _ (j & [<-|[]] & K). congruence.
  - rewrite andb_true_iff, IHl, IHr. split.
    + intros (N1 & N2) (j & H & K). apply in_app_iff in H as [H|H]; [apply N1|apply N2]; now exists j.
    + intros N. split; intros (j & H & K); apply N; exists j; rewrite in_app_iff; tauto.
  - rewrite forallb_forall. rewrite Forall_forall in IH. split.
    + intros N (j & H & K). apply in_flat_map in H as (a & Ha & H). apply (IH a Ha); [now apply N|]. now exists j.
    + intros N a Ha. apply (IH a Ha). intros (j & H & K). apply N. exists j. rewrite in_flat_map. split; [now exists a|exact K].
Qed.
Lemma setup_class_role kind p : role kind p (setup_class kind p).
Proof.
  unfold setup_class. destruct (pinterval kind p) eqn:EI; [now apply pinterval_iff|].
  assert (NI : ~ exists i, part (PBase i) p /\ kind i = KInterval) by (rewrite <- pinterval_iff; congruence).
  destruct (pfixed kind p) eqn:EF; [split; [exact NI|now apply pfixed_iff]|].
  assert (SF : exists i, In i (leaves p) /\ kind i = KFree).
  { destruct (existsb (fun i => match kind i with KFree => true | _ => false end) (leaves p)) eqn:E.
    - apply existsb_exists in E as (i & Hi & E). exists i. split; [exact Hi|]. destruct (kind i); [reflexivity|discriminate..].
    - exfalso. assert (pfixed kind p = true); [|congruence]. apply pfixed_iff. intros (i & Hi & K). apply part_leaf in Hi.
      assert (existsb (fun i => match kind i with KFree => true | _ => false end) (leaves p) = true); [|congruence].
      apply existsb_exists. exists i. now rewrite K. }
  destruct (is_comp p) eqn:EC.
  - split; [exact NI|]. split; [|exact EC]. destruct SF as (i & Hi & K). exists i. now rewrite part_leaf.
  - destruct p as [i|?|?]; [|discriminate..]. destruct SF as (j & [<-|[]] & K). now exists i.
Qed.

Theorem C35_partial : forall kind bname cname ops h comps, session ops h comps ->
  exists mi, get_model_info kind h bname cname comps = Ok mi
  (* sampled: the free base parameters the model uses, each once *)
  /\ NoDup (mi_sample mi)
  /\ (forall i, In i (mi_sample mi) <-> kind i = KFree /\ uses h comps i)
  (* values: the object held by the slot, evaluated at the sampled (and integrated)
     values and the values of the fixed parameters *)
  /\ (forall V (A : alg V) (dflt val : nat -> V) m,
        (forall i, kind i <> KFixed -> uses h comps i -> m i = Some (val i)) -> (forall i, kind i = KFixed -> m i = None) ->
        forall s p, In s (slots_of comps) -> h_slot h s = Some p ->
        comp_value A dflt h mi m s = Ok (psem A (fun i => match kind i with KFixed => dflt i | _ => val i end) p))
  (* the table: every slot is its own, or forwarded to the one slot that owns the object *)
  /\ exists own : slot -> slot,
       (forall s, In s (slots_of comps) -> In (own s) (slots_of comps) /\ h_slot h (own s) = h_slot h s) /\
       (forall s s', In s (slots_of comps) -> In s' (slots_of comps) -> h_slot h s = h_slot h s' -> own s = own s') /\
       Forall2 (fun s e => fst e = label cname s /\ fst (snd e) = label cname (own s) /\
                           (s <> own s -> snd (snd e) = Forwarded) /\
                           (s = own s -> forall p, h_slot h s = Some p -> role kind p (snd (snd e))))
               (slots_of comps) (mi_setup mi).
Proof.
  intros kind bname cname ops h comps S. destruct (session_inv _ _ _ S) as (dead & I & D). pose proof (se_objects _ _ _ S) as O. pose proof (se_model _ _ _ S) as M.
  exists (the_info kind h bname cname comps). split; [eapply get_model_info_eq; eauto|].
  assert (US : forall i, uses h comps i <-> exists p, held h comps p /\ part (PBase i) p).
  { intros i. split; [intros (s & p & A & B & C); exists p; split; [now exists s|exact C]|]. intros (p & (s & A & B) & C). now exists s, p. }
  assert (SM : forall i, In i (mi_sample (the_info kind h bname cname comps)) <-> kind i = KFree /\ uses h comps i).
  { intros i. cbn [mi_sample the_info]. destruct (dedup_nil (sample_order kind h cname comps)) as (_ & X). rewrite X, US. eapply order_sample; eauto. }
  split; [apply dedup_nil|]. split; [exact SM|]. split.
  - intros V A dflt val m Hm1 Hm2 s p Hs E.
    erewrite comp_value_eq; eauto. f_equal. apply psem_pvalue. intros i Hi. unfold overlay.
    assert (U : uses h comps i) by (exists s, p; rewrite part_leaf; auto).
    destruct (kind i) eqn:K.
    + rewrite (Hm1 i); [reflexivity|congruence|exact U].
    + rewrite (Hm2 i K). now destruct (existsb _ _).
    + rewrite (Hm1 i); [reflexivity|congruence|exact U].
  - exists (fun s => match get_comp_param (h_trk h (pid (slot_param h s))) (map c_id comps) with Some r => r | None => s end).
    split; [|split].
    + intros s Hs. destruct (cp_held h comps (ops_params ops) dead I M s Hs) as (r & E). rewrite E.
      destruct (cp_slot h comps (ops_params ops) dead O I M D s r Hs E) as (Hr & Er). split; [exact Hr|].
      rewrite (slot_param_ok h comps M r Hr), (slot_param_ok h comps M s Hs). congruence.
    + intros s s' Hs Hs' E. rewrite (slot_param_ok h comps M s Hs), (slot_param_ok h comps M s' Hs') in E. injection E as E. rewrite <- E.
      destruct (cp_held h comps (ops_params ops) dead I M s Hs) as (r & Er). now rewrite Er.
    + cbn [mi_setup the_info]. rewrite map_map.
      assert (G : forall l, incl l (slots_of comps) -> Forall2 (fun s e => fst e = label cname s /\
          fst (snd e) = label cname (match get_comp_param (h_trk h (pid (slot_param h s))) (map c_id comps) with Some r => r | None => s end) /\
          (s <> match get_comp_param (h_trk h (pid (slot_param h s))) (map c_id comps) with Some r => r | None => s end -> snd (snd e) = Forwarded) /\
          (s = match get_comp_param (h_trk h (pid (slot_param h s))) (map c_id comps) with Some r => r | None => s end -> forall p, h_slot h s = Some p -> role kind p (snd (snd e))))
         l (map (fun s => fst (fst (row_val kind h cname comps s))) l)).
      { induction l as [|s l IH]; intros Hl; [constructor|]. cbn [map]. constructor; [|apply IH; intros x Hx; apply Hl; now right].
        assert (Hs : In s (slots_of comps)) by (apply Hl; now left). unfold row_val.
        destruct (cp_held h comps (ops_params ops) dead I M s Hs) as (r & E). rewrite E.
        destruct (slot_eqb_spec s r) as [<-|N]; cbn [fst snd]; repeat (split; [reflexivity|]).
        - split; [congruence|]. intros _ p Ep. unfold slot_param. rewrite Ep. apply setup_class_role.
        - intros X; congruence. }
      apply G. intros x Hx. exact Hx.
Qed.
Print Assumptions C35_partial.

(** the same object in two places always has one value *)
Corollary C35_shared_value : forall kind bname cname ops h comps mi, session ops h comps ->
  get_model_info kind h bname cname comps = Ok mi ->
  forall V (A : alg V) dflt m s s' p, In s (slots_of comps) -> In s' (slots_of comps) ->
  h_slot h s = Some p -> h_slot h s' = Some p ->
  exists v, comp_value A dflt h mi m s = Ok v /\ comp_value A dflt h mi m s' = Ok v.
Proof.
  intros kind bname cname ops h comps mi S E V A dflt m s s' p Hs Hs' E1 E2. destruct (session_inv _ _ _ S) as (dead & I & D).
  pose proof (se_objects _ _ _ S) as O. pose proof (se_model _ _ _ S) as M.
  assert (mi = the_info kind h bname cname comps) as -> by (erewrite get_model_info_eq in E; eauto; congruence).
  eexists. split; erewrite comp_value_eq; eauto.
Qed.
Print Assumptions C35_shared_value.

(** The restriction [no_reuse] is needed: trackers keep records of components that no
    longer exist, and identities are addresses.  A parameter is given to a component
    that is then dropped; a new component at the same address holds another parameter
    under that name.  Using the first parameter elsewhere in the same model makes
    [get_model_info] fail on its own consistency check. *)
Definition C35_ops : list hop :=
  [HAssign (1, [ "K"%char ]) (PBase 10); HDrop 1; HAssign (1, [ "K"%char ]) (PBase 11); HAssign (2, [ "K"%char ]) (PBase 10)].
Theorem C35_address_reuse_refuted : exists h comps, hrun hempty C35_ops = Ok h /\ coherent (ops_params C35_ops) /\ model_ok h comps /\
  forall bname cname, get_model_info (fun _ => KFree) h bname cname comps = Err RuntimeError.
Proof.
  eexists. exists [{| c_id := 1; c_params := [[ "K"%char ]] |}; {| c_id := 2; c_params := [[ "K"%char ]] |}].
  split; [reflexivity|]. split; [|split].
  - intros p q a b Hp Hq Ha Hb E. cbn in Hp, Hq. repeat (destruct Hp as [<-|Hp]); try easy; repeat (destruct Hq as [<-|Hq]); try easy; inversion Ha; inversion Hb; subst; cbn in E; congruence.
  - constructor.
    + discriminate.
    + intros s [<-|[<-|[]]]; eexists; reflexivity.
    + intros [c n] p E Hc. cbn in Hc. cbn [slots_of flat_map c_params c_id map List.app In].
      unfold upd in E. cbn [h_slot] in E. cbn in E.
      destruct (slot_eqb_spec (2, ["K"%char]) (c, n)) as [<-|]; [tauto|].
      destruct (slot_eqb_spec (1, ["K"%char]) (c, n)) as [<-|]; [tauto|]. 
      destruct Hc as [<-|[<-|[]]]; cbn in E; discriminate.
  - intros bname cname. reflexivity.
Qed.
Print Assumptions C35_address_reuse_refuted.

(** ** C34 *)
Definition names_id (mi : minfo) (n : str) (i : nat) : Prop := In i (mi_sample mi) /\ name_of mi i = n.

Section C34.
Variables (kind : nat -> pkind) (bname cname : nat -> str) (ops : list hop) (h : heap) (comps : list comp).
Hypothesis S : session ops h comps.
Hypothesis G : good_names bname cname comps.
Let mi := the_info kind h bname cname comps.
Lemma mi_eq : get_model_info kind h bname cname comps = Ok mi.
Proof. destruct (session_inv _ _ _ S) as (dead & I & D). destruct S as [? ? ? ? ?]. eapply get_model_info_eq; eauto. Qed.
Lemma Fsample i : In i (mi_sample mi) <-> kind i = KFree /\ exists p, held h comps p /\ part (PBase i) p.
Proof.
  destruct (session_inv _ _ _ S) as (dead & I & D). destruct S as [? ? ? ? ?]. unfold mi. cbn [mi_sample the_info].
  rewrite (proj2 (dedup_nil _)). eapply order_sample; eauto.
Qed.
Lemma Fnames : NoDup (map snd (mi_name mi)).
Proof.
  destruct (session_inv _ _ _ S) as (dead & I & D). destruct S as [? ? ? ? ?], G as [G1 G2 G3]. eapply mi_names_nodup; eauto.
Qed.
Lemma Fnamed i p : held h comps p -> part (PBase i) p -> In i (map fst (mi_name mi)).
Proof. destruct (session_inv _ _ _ S) as (dead & I & D). destruct S as [? ? ? ? ?]. eapply named_base; eauto. Qed.

Lemma same_value {V} (A : alg V) d d' (m m' : nat -> option V) s :
  (forall i, uses h comps i -> match overlay d mi m i with Some v => v | None => d i end = match overlay d' mi m' i with Some v => v | None => d' i end) ->
  In s (slots_of comps) -> comp_value A d h mi m s = comp_value A d' h mi m' s.
Proof.
  intros H Hs. destruct (session_inv _ _ _ S) as (dead & I & D). destruct S as [? ? ? M ?]. destruct (mo_set _ _ M s Hs) as (p & E).
  unfold mi in *; erewrite !(comp_value_eq kind); eauto. f_equal.
  etransitivity; [|symmetry]; apply (psem_pvalue A (fun i => match overlay d mi m i with Some v => v | None => d i end)).
  - reflexivity.
  - intros i Hi. symmetry. apply H. exists s, p. rewrite part_leaf. auto.
Qed.
Lemma free_not_fixed i : uses h comps i -> ~ In i (mi_sample mi) -> existsb (Nat.eqb i) (mi_sample mi) = false /\ kind i <> KFree.
Proof.
  intros U N. split; [rewrite <- not_true_iff_false, existsb_eqb; exact N|]. intros K. apply N, Fsample. split; [exact K|].
  destruct U as (s & p & A & B & C). exists p. split; [now exists s|exact C].
Qed.
Lemma defaults_agree {V} (A : alg V) (d d' : nat -> V) (m : nat -> option V) s : In s (slots_of comps) ->
  (forall i, ~ In i (mi_sample mi) -> d' i = d i) ->
  (forall i, In i (mi_sample mi) -> m i = Some (d' i)) -> (forall i, ~ In i (mi_sample mi) -> m i = None) ->
  comp_value A d h mi m s = run_compiled A d' h (compile h mi comps) ANone s.
Proof.
  intros Hs Hd H1 H2. unfold run_compiled, prepare. cbn [bind].
  assert (cm_info (compile h mi comps) = mi) as -> by (unfold compile; destruct (compile_ids h mi comps); reflexivity).
  apply same_value; [|exact Hs]. intros i U. unfold overlay. destruct (in_dec Nat.eq_dec i (mi_sample mi)) as [Hi|N].
  - rewrite (H1 i Hi). apply existsb_eqb in Hi. now rewrite Hi.
  - rewrite (H2 i N). destruct (free_not_fixed i U N) as (E & _). rewrite E. rewrite (Hd i N). now destruct (existsb _ _).
Qed.
End C34.

(** a mapping from the public names to values acts like new defaults, for every model *)
Theorem C34_mapping : forall kind bname cname ops h comps, session ops h comps -> good_names bname cname comps ->
  exists mi, get_model_info kind h bname cname comps = Ok mi /\
  let c := compile h mi comps in
  NoDup (params_name c) /\ (forall n, In n (params_name c) <-> exists i, names_id mi n i) /\
  forall V (A : alg V) (d d' : nat -> V) vs s, length vs = length (params_name c) -> In s (slots_of comps) ->
    (forall i, ~ In i (mi_sample mi) -> d' i = d i) ->
    (forall n v i, In (n, v) (combine (params_name c) vs) -> names_id mi n i -> d' i = v) ->
    run_compiled A d h c (AMap (combine (params_name c) vs)) s = run_compiled A d' h c ANone s.
Proof.
  intros kind bname cname ops h comps S G. set (mi := the_info kind h bname cname comps). exists mi. split; [exact (mi_eq kind bname cname ops h comps S)|]. cbv zeta.
  pose proof (Fsample kind bname cname ops h comps S) as F1. pose proof (Fnames kind bname cname ops h comps S G) as F2.
  pose proof (Fnamed kind bname cname ops h comps S) as F3. fold mi in F1, F2, F3.
  destruct (dedup_nil (ids h comps mi)) as (N1 & B1).
  pose proof (all_inj kind h comps mi F1 F2 F3) as IJ.
  assert (IJ1 : inj_on (name_of mi) (dedup_in [] (ids h comps mi))) by (intros i j Hi Hj; apply IJ; apply in_app_iff; left; now apply B1).
  pose proof (params_name_eq kind h comps mi F1 F2 F3) as EP. rewrite EP.
  split; [now apply inj_nodup|]. split.
  - intros n. rewrite in_map_iff. unfold names_id. split; intros (i & A & B); exists i; [rewrite B1 in B; rewrite (ids_in kind h comps mi F1) in B|rewrite B1, (ids_in kind h comps mi F1)]; tauto.
  - intros V A d d' vs s Hl Hs Hd Hd'. rewrite map_length in Hl.
    destruct (prepare_map kind h comps mi F1 F2 F3 d vs Hl) as (m & Em & Hm). rewrite EP in Em. unfold run_compiled at 1. rewrite Em. cbn [bind].
    assert (cm_info (compile h mi comps) = mi) as -> by (unfold compile; destruct (compile_ids h mi comps); reflexivity).
    apply (defaults_agree kind bname cname ops h comps S); [exact Hs|exact Hd| |].
    + intros i Hi. rewrite Hm. fold mi in Hi. assert (Hi' : In i (dedup_in [] (ids h comps mi))) by (rewrite B1, (ids_in kind h comps mi F1); exact Hi).
      destruct (dget_some_key (combine (dedup_in [] (ids h comps mi)) vs) i) as (v & Ev); [rewrite map_fst_combine by lia; exact Hi'|].
      rewrite Ev. f_equal. symmetry. apply (Hd' (name_of mi i) v i); [|now split].
      rewrite <- (get_combine (name_of mi) vs _ i IJ1 Hl N1 Hi') in Ev. now apply get_in.
    + intros i Hi. rewrite Hm. apply dget_none. rewrite map_fst_combine by lia. rewrite B1, (ids_in kind h comps mi F1). exact Hi.
Qed.
Print Assumptions C34_mapping.

(** a sequence in the order of [params_name] is the same as the mapping, when no free
    parameter is used by two component parameters *)
Theorem C34_sequence_partial : forall kind bname cname ops h comps, session ops h comps -> good_names bname cname comps ->
  NoDup (slots_of comps) -> unshared kind h comps ->
  forall mi, get_model_info kind h bname cname comps = Ok mi ->
  let c := compile h mi comps in
  forall V (A : alg V) (d : nat -> V) vs s, length vs = length (params_name c) -> In s (slots_of comps) ->
    run_compiled A d h c (ASeq vs) s = run_compiled A d h c (AMap (combine (params_name c) vs)) s.
Proof.
  intros kind bname cname ops h comps S G Nd U mi Emi. cbv zeta. intros V A d vs s Hl Hs. rewrite (mi_eq kind bname cname ops h comps S) in Emi. injection Emi as <-.
  pose proof (Fsample kind bname cname ops h comps S) as F1. pose proof (Fnames kind bname cname ops h comps S G) as F2.
  pose proof (Fnamed kind bname cname ops h comps S) as F3. set (mi := the_info kind h bname cname comps) in *.
  pose proof (params_name_eq kind h comps mi F1 F2 F3) as EP. rewrite EP in Hl. rewrite map_length in Hl.
  assert (Ni : NoDup (ids h comps mi)) by (apply (unshared_nodup kind h comps mi (mo_set _ _ (se_model _ _ _ S)) F1 d Nd U)).
  unfold run_compiled. rewrite (prepare_seq kind h comps mi F1 F2 F3 d vs Ni Hl). destruct (prepare_map kind h comps mi F1 F2 F3 d vs Hl) as (m & Em & Hm). rewrite Em. cbn [bind].
  assert (cm_info (compile h mi comps) = mi) as -> by (unfold compile; destruct (compile_ids h mi comps); reflexivity).
  apply (same_value kind bname cname ops h comps S); [|exact Hs]. intros i _. unfold overlay. now rewrite Hm.
Qed.
Print Assumptions C34_sequence_partial.

(** ... and otherwise no sequence at all is accepted, not even the one asked for by the
    error message *)
Theorem C34_shared_refuted : forall kind bname cname ops h comps, session ops h comps -> good_names bname cname comps ->
  forall s s' p p' i, In s (slots_of comps) -> In s' (slots_of comps) -> s <> s' ->
  h_slot h s = Some p -> h_slot h s' = Some p' -> kind i = KFree -> part (PBase i) p -> part (PBase i) p' ->
  forall mi, get_model_info kind h bname cname comps = Ok mi ->
  forall V (A : alg V) (d : nat -> V) vs t, run_compiled A d h (compile h mi comps) (ASeq vs) t = Err ValueError.
Proof.
  intros kind bname cname ops h comps S G s s' p p' i Hs Hs' N E E' K H1 H2 mi Emi V A d vs t. rewrite (mi_eq kind bname cname ops h comps S) in Emi. injection Emi as <-.
  pose proof (Fsample kind bname cname ops h comps S) as F1. pose proof (Fnames kind bname cname ops h comps S G) as F2.
  pose proof (Fnamed kind bname cname ops h comps S) as F3. set (mi := the_info kind h bname cname comps) in *.
  unfold run_compiled. rewrite (prepare_seq_dup kind h comps mi F1 F2 F3); [reflexivity|]. exact (shared_dup kind h comps mi F1 d s s' p p' i Hs Hs' N E E' K H1 H2).
Qed.
Print Assumptions C34_shared_refuted.

(** ** the hypotheses are met: a power law and a black body; the norm [11] of the second is
    first a parameter of its own, then linked to the norm of the first, as is its
    temperature to a composite of the index and an auxiliary parameter *)
Definition K : str := ["K"%char].
Definition T : str := ["T"%char].
Definition ex_comps := [{| c_id := 1; c_params := [T; K] |}; {| c_id := 2; c_params := [T; K] |}].
Definition ex_linked := PBin 20 Expr.Add (PBase 3) (PBase 4).
Definition ex_ops : list hop :=
  [HAssign (1, T) (PBase 3); HAssign (1, K) (PBase 10); HAssign (2, T) (PBase 5); HAssign (2, K) (PBase 11);
   HAssign (2, K) (PBase 10); HAssign (2, T) ex_linked].
Definition ex_kind (i : nat) : pkind := if (i =? 4)%nat then KFixed else KFree.
Definition ex_names (i : nat) : str := nat_str i.
Definition ex_cname (c : nat) : str := if (c =? 1)%nat then s2l "PowerLaw" else s2l "BlackBody".

Lemma ex_coherent : coherent (ops_params ex_ops).
Proof.
  assert (P : forall q p, In p (ops_params ex_ops) -> part q p -> In q [PBase 3; PBase 10; PBase 5; PBase 11; PBase 4; ex_linked]).
  { intros q p Hp Hq. cbn in Hp. repeat (destruct Hp as [<-|Hp]); try easy;
    repeat match goal with H : part _ _ |- _ => inversion H; subst; clear H end; cbn; tauto. }
  intros p q a b Hp Hq Ha Hb E. apply (P a p Hp) in Ha. apply (P b q Hq) in Hb. cbn in Ha, Hb.
  repeat (destruct Ha as [<-|Ha]); try easy; repeat (destruct Hb as [<-|Hb]); try easy; cbn in E; congruence.
Qed.
Definition ex_heap : heap := match hrun hempty ex_ops with Ok h => h | Err _ => hempty end.
Example ex_session : session ex_ops ex_heap ex_comps.
Proof.
  constructor.
  - reflexivity.
  - exact ex_coherent.
  - cbn. tauto.
  - constructor.
    + discriminate.
    + intros s H. cbn in H. repeat (destruct H as [<-|H]; [eexists; reflexivity|]). easy.
    + intros s p E Hc. destruct (hrun_assigned ex_ops hempty ex_heap s p eq_refl E) as [N|(q & Hq)]; [now contradiction N|].
      cbn in Hq. repeat (destruct Hq as [Hq|Hq]; [injection Hq as <- _; cbn; tauto|]). easy.
  - intros c Hc H. cbn in H. repeat (destruct H as [H|H]; [discriminate|]). easy.
Qed.
Example ex_good_names : good_names ex_names ex_cname ex_comps.
Proof.
  constructor.
  - intros c c' H H'. cbn in H, H'. destruct H as [<-|[<-|[]]], H' as [<-|[<-|[]]]; cbn; congruence.
  - intros c n H Hn. cbn in H. destruct H as [<-|[<-|[]]]; cbn in Hn; destruct Hn as [<-|[<-|[]]]; unfold T, K, dot; cbn; intuition discriminate.
  - intros i. unfold ex_names, nat_str. split.
    + unfold ends_with_prime. intros (b & E). assert (In quote (uint_str (Nat.to_uint i))) as H by (rewrite E; apply in_app_iff; right; now left).
      revert H. apply digit_not. unfold is_digit, quote, dot; cbn; intuition discriminate.
    + apply digit_not. unfold is_digit, quote, dot; cbn; intuition discriminate.
Qed.
(** [K] of the second component is forwarded; sampled: both uses of 3 and 10 count once *)
Example ex_info : exists mi, get_model_info ex_kind ex_heap ex_names ex_cname ex_comps = Ok mi /\ mi_sample mi = [3; 10] /\
  map snd (mi_setup mi) = [(s2l "PowerLaw.T", Free); (s2l "PowerLaw.K", Free); (s2l "BlackBody.T", Composed); (s2l "PowerLaw.K", Forwarded)].
Proof. eexists. split; [reflexivity|]. split; reflexivity. Qed.
(** this model shares the free parameters 3 and 10, so [C34_shared_refuted] applies to it; the one
    before the last two assignments is unshared, so [C34_sequence_partial] applies to it *)
Example ex_shared_slots : In (1, K) (slots_of ex_comps) /\ In (2, K) (slots_of ex_comps) /\ (1, K) <> (2, K) /\
  h_slot ex_heap (1, K) = Some (PBase 10) /\ h_slot ex_heap (2, K) = Some (PBase 10) /\ ex_kind 10 = KFree.
Proof. cbn. intuition congruence. Qed.
Definition ex_ops4 := firstn 4 ex_ops.
Definition ex_heap4 : heap := match hrun hempty ex_ops4 with Ok h => h | Err _ => hempty end.
Example ex_unshared : hrun hempty ex_ops4 = Ok ex_heap4 /\ NoDup (slots_of ex_comps) /\ unshared ex_kind ex_heap4 ex_comps.
Proof.
  split; [reflexivity|]. split.
  - unfold ex_comps, T, K. cbn. repeat (constructor; [cbn; intuition congruence|]). constructor.
  - intros s s' p p' i Hs Hs' E E' _ H H'. cbn in Hs, Hs'.
    repeat (destruct Hs as [<-|Hs]); try easy; repeat (destruct Hs' as [<-|Hs']); try easy;
    cbn in E, E'; injection E as <-; injection E' as <-; inversion H; subst; inversion H'.
Qed.
