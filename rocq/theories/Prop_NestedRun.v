(** C110: what the nested samplers explore and what they return. *)
From Coq Require Import Ascii String.
From Verif Require Import RBase Base Namespace NamespaceProofs CompileProofs HelperData HelperDataProofs BatchProofs Nested NestedRun Prop_Nested Prop_ChanLabels ChanLabels.
From Coq Require Import List Lia Permutation Psatz.
Open Scope list_scope.
Open Scope R_scope.

(** ** specification.  [at_point cube env p vals L]: the program [p] continued
    after its parameters had the values [env]: the next parameter takes the value
    to which its prior - which may depend on the earlier parameters - sends the
    coordinates [cube] of the unit cube; [vals] are the values of the parameters
    and of the derived quantities, [L] the log-likelihood of the observations
    alone, at these parameters. *)
Inductive at_point (cube : str -> value) : list value -> program -> list (str * value) -> fl -> Prop :=
| at_nil env : at_point cube env [] [] (Fin 0)
| at_latent env n sh d r vals L :
    at_point cube (env ++ [sd_unit (d env) (cube n)]) r vals L ->
    at_point cube env (Latent n sh d :: r) ((n, sd_unit (d env) (cube n)) :: vals) L
| at_observed env n lp r vals L :
    at_point cube env r vals L -> at_point cube env (Observed n lp :: r) vals (fadd (lp env) L)
| at_derived env n f r vals L :
    at_point cube env r vals L -> at_point cube env (Derived n f :: r) ((n, f env) :: vals) L.
Definition stmt_name (s : stmt) : str := match s with Latent n _ _ => n | Observed n _ => n | Derived n _ => n end.
(** no two sites alike, and none called like the coordinate of a parameter *)
Definition names_ok (p : program) : Prop := NoDup (map stmt_name p ++ map u_name (params_names p)).
(** the coordinates of every parameter are given *)
Definition covers (c : list (str * value)) (p : program) : Prop := forall n, In n (params_names p) -> exists x, get c (u_name n) = Some x.
Definition coordinates (c : list (str * value)) (n : str) : value := match get c (u_name n) with Some x => x | None => [] end.

Lemma at_point_exists cube p : forall env, exists vals L, at_point cube env p vals L.
Proof.
  induction p as [|[n sh d|n lp|n f] r IH]; intros env.
  - do 2 eexists. constructor.
  - destruct (IH (env ++ [sd_unit (d env) (cube n)])) as (v & L & H). do 2 eexists. constructor. exact H.
  - destruct (IH env) as (v & L & H). do 2 eexists. constructor. exact H.
  - destruct (IH env) as (v & L & H). do 2 eexists. constructor. exact H.
Qed.
Lemma at_point_fun cube env p vals L : at_point cube env p vals L -> forall vals' L', at_point cube env p vals' L' -> vals' = vals /\ L' = L.
Proof.
  induction 1 as [env|env n sh d r vals L H IH|env n lp r vals L H IH|env n f r vals L H IH]; intros vals' L' H'; inversion H'; subst.
  - now split.
  - match goal with X : at_point _ _ r _ _ |- _ => apply IH in X as (-> & ->) end. now split.
  - match goal with X : at_point _ _ r _ _ |- _ => apply IH in X as (-> & ->) end. now split.
  - match goal with X : at_point _ _ r _ _ |- _ => apply IH in X as (-> & ->) end. now split.
Qed.

(** ** running the reparametrised program *)
Lemma fadd_0 x : fadd (Fin 0) x = x.
Proof. destruct x; cbn; try reflexivity. now rewrite Rplus_0_l. Qed.
Definition is_sample (s : site) : bool := match s_kind s with Determined => false | _ => true end.
Definition entry (s : site) : str * value := (s_name s, s_value s).
(** the coordinates do not count among the returned values, the others do *)
Fixpoint returned (conf : list str) (p : program) (t : list site) : list site :=
  match p, t with
  | Latent n _ _ :: r, a :: b :: t' => b :: returned conf r t'
  | Observed _ _ :: r, a :: t' => returned conf r t'
  | Derived _ _ :: r, a :: t' => a :: returned conf r t'
  | _, _ => []
  end.
Lemma exec_reparam conf c p : forall env, incl (params_names p) conf -> covers c p ->
  exists t, exec conf c env p = Ok t
    /\ (forall vals L, at_point (coordinates c) env p vals L ->
         fsum (map s_logp (filter is_sample t)) = L /\ map entry (returned conf p t) = vals)
    /\ Permutation (map s_name t) (map stmt_name p ++ map u_name (params_names p)).
Proof.
  induction p as [|[n sh d|n lp|n f] r IH]; intros env HI HC.
  - exists []. split; [reflexivity|]. split; [|reflexivity]. intros vals L H. inversion H; subst. now split.
  - cbn [exec]. assert (In n conf) by (apply HI; left; reflexivity). rewrite (proj2 (str_in_spec n conf) H).
    destruct (HC n) as (x & Ex); [left; reflexivity|]. rewrite Ex. cbn [opt_err bind].
    assert (Ec : coordinates c n = x) by (unfold coordinates; now rewrite Ex).
    destruct (IH (env ++ [sd_unit (d env) x])) as (t & Et & Hv & Hp).
    { intros k Hk. apply HI. right. exact Hk. }
    { intros k Hk. apply HC. right. exact Hk. }
    cbv zeta. rewrite Et. cbn [bind]. eexists. split; [reflexivity|]. split.
    + intros vals L HA. inversion HA as [|e n' sh' d' r' v' L' H1| |]; subst. destruct (Hv _ _ H1) as (A & B). split.
      * cbn [filter is_sample s_kind map s_logp]. change (fadd (Fin 0) (fsum (map s_logp (filter is_sample t))) = L). now rewrite fadd_0.
      * cbn [returned map entry s_name s_value]. unfold entry at 1. cbn [s_name s_value]. now rewrite B.
    + cbn [map s_name stmt_name params_names params_dtype fst]. change (map fst (params_dtype r)) with (params_names r).
      change ((n :: map stmt_name r) ++ map u_name (n :: params_names r)) with (n :: (map stmt_name r ++ u_name n :: map u_name (params_names r))).
      rewrite perm_swap. constructor. rewrite Hp. apply Permutation_middle.
  - cbn [exec]. destruct (IH env HI HC) as (t & Et & Hv & Hp). rewrite Et. cbn [bind]. eexists. split; [reflexivity|]. split.
    + intros vals L HA. inversion HA as [| |e n' lp' r' v' L' H1|]; subst. destruct (Hv _ _ H1) as (A & B). split.
      * cbn [filter is_sample s_kind map s_logp]. change (fadd (lp env) (fsum (map s_logp (filter is_sample t))) = fadd (lp env) L'). now rewrite A.
      * cbn [returned]. exact B.
    + cbn [map s_name stmt_name app]. constructor. exact Hp.
  - cbn [exec]. destruct (IH env HI HC) as (t & Et & Hv & Hp). rewrite Et. cbn [bind]. eexists. split; [reflexivity|]. split.
    + intros vals L HA. inversion HA as [| | |e n' f' r' v' L' H1]; subst. destruct (Hv _ _ H1) as (A & B). split.
      * cbn [filter is_sample s_kind]. exact A.
      * cbn [returned map]. unfold entry at 1. cbn [s_name s_value]. now rewrite B.
    + cbn [map s_name stmt_name app]. constructor. exact Hp.
Qed.
Lemma distinct_spec l : distinct l = true <-> NoDup l.
Proof.
  induction l as [|x r IH]; cbn; [split; [constructor|reflexivity]|]. rewrite andb_true_iff, negb_true_iff, IH. split.
  - intros (A & B). constructor; [|exact B]. intros H. apply str_in_spec in H. congruence.
  - intros H. inversion H; subst. split; [|assumption]. destruct (str_in x r) eqn:E; [apply str_in_spec in E; contradiction|reflexivity].
Qed.
(** the sites kept by [Predictive] *)
Lemma keep_returned conf keep c p : forall env t, incl (params_names p) conf -> exec conf c env p = Ok t ->
  (forall s, In s p -> match s with Observed n _ => str_in n keep = false | Latent n _ _ => str_in n keep = true /\ str_in (u_name n) keep = false | Derived n _ => str_in n keep = true end) ->
  filter (fun s => str_in (s_name s) keep) t = returned conf p t.
Proof.
  induction p as [|[n sh d|n lp|n f] r IH]; intros env t HI E HK; cbn [exec] in E.
  - assert (t = []) by congruence. now subst.
  - assert (In n conf) by (apply HI; left; reflexivity). rewrite (proj2 (str_in_spec n conf) H) in E.
    destruct (get c (u_name n)) as [x|]; [|discriminate]. cbn [opt_err bind] in E. cbv zeta in E.
    destruct (exec conf c (env ++ [sd_unit (d env) x]) r) as [t'|] eqn:Er; [|discriminate]. cbn [bind] in E.
    match type of E with Ok ?l = Ok _ => assert (t = l) by congruence end. subst t. cbn [filter returned s_name].
    destruct (HK _ (or_introl eq_refl)) as (A & B). rewrite A, B. f_equal. eapply IH; [|exact Er|].
    + intros k Hk. apply HI. right. exact Hk.
    + intros s Hs. apply HK. now right.
  - destruct (exec conf c env r) as [t'|] eqn:Er; [|discriminate]. cbn [bind] in E.
    match type of E with Ok ?l = Ok _ => assert (t = l) by congruence end. subst t. cbn [filter returned s_name].
    rewrite (HK _ (or_introl eq_refl)). eapply IH; [exact HI|exact Er|]. intros s Hs. apply HK. now right.
  - destruct (exec conf c env r) as [t'|] eqn:Er; [|discriminate]. cbn [bind] in E.
    match type of E with Ok ?l = Ok _ => assert (t = l) by congruence end. subst t. cbn [filter returned s_name].
    rewrite (HK _ (or_introl eq_refl)). f_equal. eapply IH; [exact HI|exact Er|]. intros s Hs. apply HK. now right.
Qed.
Lemma in_params_names n p : In n (params_names p) <-> exists sh d, In (Latent n sh d) p.
Proof.
  unfold params_names. induction p as [|[m sh d|m lp|m f] r IH]; cbn.
  - split; [intros []|intros (? & ? & [])].
  - rewrite IH. split.
    + intros [->|(sh' & d' & H)]; [exists sh, d; now left|exists sh', d'; now right].
    + intros (sh' & d' & [E|H]); [left; congruence|right; now exists sh', d'].
  - rewrite IH. split; intros (sh' & d' & H); exists sh', d'; [now right|]. destruct H as [E|H]; [discriminate|exact H].
  - rewrite IH. split; intros (sh' & d' & H); exists sh', d'; [now right|]. destruct H as [E|H]; [discriminate|exact H].
Qed.
Lemma in_deterministic n p : In n (deterministic_names p) <-> exists f, In (Derived n f) p.
Proof.
  induction p as [|[m sh d|m lp|m f] r IH]; cbn.
  - split; [intros []|intros (? & [])].
  - rewrite IH. split; intros (f & H); exists f; [now right|]. destruct H as [E|H]; [discriminate|exact H].
  - rewrite IH. split; intros (f & H); exists f; [now right|]. destruct H as [E|H]; [discriminate|exact H].
  - rewrite IH. split.
    + intros [->|(f' & H)]; [exists f; now left|exists f'; now right].
    + intros (f' & [E|H]); [left; congruence|right; now exists f'].
Qed.
Lemma nodup_name_unique p s s' : NoDup (map stmt_name p) -> In s p -> In s' p -> stmt_name s = stmt_name s' -> s = s'.
Proof.
  intros N. induction p as [|x r IH]; intros H H' E; [destruct H|]. cbn in N. inversion N as [|? ? Nx Nr]; subst.
  destruct H as [->|H], H' as [->|H']; [reflexivity| | |now apply IH].
  - exfalso. apply Nx. rewrite E. now apply in_map.
  - exfalso. apply Nx. rewrite <- E. now apply in_map.
Qed.
Lemma nodup_app_l {A} (l l' : list A) : NoDup (l ++ l') -> NoDup l.
Proof. induction l as [|x l IH]; [constructor|]. cbn. intros H. inversion H; subst. constructor; [|auto]. intros C. apply H2, in_or_app. now left. Qed.
Lemma nodup_app_disj {A} (l l' : list A) x : NoDup (l ++ l') -> In x l -> In x l' -> False.
Proof. induction l as [|y l IH]; [intros _ []|]. cbn. intros H [->|Hx] H'; inversion H; subst; [apply H2, in_or_app; now right|auto]. Qed.
Lemma not_str_in n l : ~ In n l -> str_in n l = false.
Proof. intros H. destruct (str_in n l) eqn:E; [apply str_in_spec in E; contradiction|reflexivity]. Qed.
Lemma keep_ok p : names_ok p -> forall s, In s p ->
  match s with
  | Observed n _ => str_in n (params_names p ++ deterministic_names p) = false
  | Latent n _ _ => str_in n (params_names p ++ deterministic_names p) = true /\ str_in (u_name n) (params_names p ++ deterministic_names p) = false
  | Derived n _ => str_in n (params_names p ++ deterministic_names p) = true
  end.
Proof.
  intros N s Hs. pose proof (nodup_app_l _ _ N) as N1.
  assert (Sub : forall n, In n (params_names p ++ deterministic_names p) -> exists s', In s' p /\ stmt_name s' = n /\ match s' with Observed _ _ => False | _ => True end).
  { intros n H. apply in_app_or in H as [H|H].
    - apply in_params_names in H as (sh & d & H). exists (Latent n sh d). now repeat split.
    - apply in_deterministic in H as (f & H). exists (Derived n f). now repeat split. }
  destruct s as [n sh d|n lp|n f].
  - split.
    + apply str_in_spec, in_or_app. left. apply in_params_names. now exists sh, d.
    + apply not_str_in. intros H. apply Sub in H as (s' & Hs' & E & _). apply (nodup_app_disj _ _ (u_name n) N).
      * rewrite <- E. now apply in_map.
      * apply in_map. apply in_params_names. now exists sh, d.
  - apply not_str_in. intros H. apply Sub in H as (s' & Hs' & E & F).
    assert (s' = Observed n lp) by (eapply nodup_name_unique; eauto). subst s'. exact F.
  - apply str_in_spec, in_or_app. right. apply in_deterministic. now exists f.
Qed.

(** The log probability a nested sampler sees at a point of the unit cube is the
    log-likelihood of the observations - without the prior - at the parameters to
    which the priors send the point, and the values reported for the point are
    those parameters and the quantities derived from them. *)
Theorem C110_target p c : names_ok p -> covers c p ->
  exists vals L, at_point (coordinates c) [] p vals L
    /\ log_prob_fn p c = Ok L /\ postprocess_fn p c = Ok vals.
Proof.
  intros N C. destruct (exec_reparam (params_names p) c p [] (fun x h => h) C) as (t & Et & Hv & Hp).
  destruct (at_point_exists (coordinates c) p []) as (vals & L & HA). destruct (Hv _ _ HA) as (A & B). exists vals, L. split; [exact HA|].
  assert (D : distinct (map s_name t) = true) by (apply distinct_spec; eapply Permutation_NoDup; [symmetry; exact Hp|exact N]).
  unfold log_prob_fn, log_density, postprocess_fn, get_trace. rewrite Et. cbn [bind]. rewrite D. cbn [bind]. split.
  - f_equal. exact A.
  - f_equal. rewrite (keep_returned (params_names p) _ c p [] t (fun x h => h) Et (keep_ok p N)). exact B.
Qed.
(** Otherwise - two sites alike, or a parameter [x] next to a site called [u_x] -
    the log probability is not defined: the model cannot be sampled. *)
Theorem C110_names p c : covers c p -> (names_ok p <-> exists L, log_prob_fn p c = Ok L).
Proof.
  intros C. split.
  - intros N. destruct (C110_target p c N C) as (vals & L & _ & H & _). now exists L.
  - intros (L & H). destruct (exec_reparam (params_names p) c p [] (fun x h => h) C) as (t & Et & _ & Hp).
    unfold log_prob_fn, log_density, get_trace in H. rewrite Et in H. cbn [bind] in H.
    destruct (distinct (map s_name t)) eqn:D; [|discriminate]. apply distinct_spec in D. unfold names_ok. eapply Permutation_NoDup; [exact Hp|exact D].
Qed.
(** The same point seen by the original model: its log density at the parameters
    is the log prior density plus that log-likelihood, with the same derived
    quantities. *)
Fixpoint log_prior (env : list value) (p : program) (vals : list (str * value)) : fl :=
  match p, vals with
  | Latent n _ d :: r, (_, v) :: vals' => fadd (sd_logp (d env) v) (log_prior (env ++ [v]) r vals')
  | Observed _ _ :: r, _ => log_prior env r vals
  | Derived _ _ :: r, _ :: vals' => log_prior env r vals'
  | _, _ => Fin 0
  end.
Lemma fadd_comm a b : fadd a b = fadd b a.
Proof. destruct a, b; cbn; try reflexivity. now rewrite Rplus_comm. Qed.
Lemma fadd_assoc a b c : fadd a (fadd b c) = fadd (fadd a b) c.
Proof. destruct a, b, c; cbn; try reflexivity. now rewrite Rplus_assoc. Qed.
Lemma exec_plain cube theta p : forall env vals L, at_point cube env p vals L ->
  (forall n v, In n (params_names p) -> In (n, v) vals -> get theta n = Some v) -> NoDup (map stmt_name p) ->
  exists t, exec [] theta env p = Ok t
    /\ fsum (map s_logp (filter is_sample t)) = fadd (log_prior env p vals) L
    /\ map entry (filter (fun s => match s_kind s with Given => false | _ => true end) t) = vals
    /\ map s_name t = map stmt_name p.
Proof.
  intros env vals L H. induction H as [env|env n sh d r vals L H IH|env n lp r vals L H IH|env n f r vals L H IH]; intros HT N.
  - exists []. cbn. rewrite Rplus_0_l. now repeat split.
  - cbn [exec str_in existsb]. rewrite (HT n (sd_unit (d env) (cube n))) by (now left). cbn [opt_err bind].
    cbn [map] in N. inversion N as [|? ? N1 N2]; subst.
    destruct IH as (t & Et & A & B & D); [|exact N2|].
    + intros k v Hk Hv. apply HT; now right.
    + rewrite Et. cbn [bind]. eexists. split; [reflexivity|]. cbn [filter is_sample s_kind map s_logp s_name stmt_name log_prior]. repeat split.
      * change (fadd (sd_logp (d env) (sd_unit (d env) (cube n))) (fsum (map s_logp (filter is_sample t))) = fadd (fadd (sd_logp (d env) (sd_unit (d env) (cube n))) (log_prior (env ++ [sd_unit (d env) (cube n)]) r vals)) L).
        rewrite A. apply fadd_assoc.
      * unfold entry at 1. cbn [s_name s_value]. now rewrite B.
      * now rewrite D.
  - cbn [exec]. cbn [map] in N. inversion N as [|? ? N1 N2]; subst. destruct IH as (t & Et & A & B & D); [exact HT|exact N2|].
    rewrite Et. cbn [bind]. eexists. split; [reflexivity|]. cbn [filter is_sample s_kind map s_logp s_name stmt_name log_prior]. repeat split.
    + change (fadd (lp env) (fsum (map s_logp (filter is_sample t))) = fadd (log_prior env r vals) (fadd (lp env) L)). rewrite A.
      rewrite fadd_assoc, (fadd_comm (lp env)), <- fadd_assoc. reflexivity.
    + exact B.
    + now rewrite D.
  - cbn [exec]. cbn [map] in N. inversion N as [|? ? N1 N2]; subst. destruct IH as (t & Et & A & B & D); [|exact N2|].
    { intros k v Hk Hv. apply HT; [exact Hk|now right]. }
    rewrite Et. cbn [bind]. eexists. split; [reflexivity|]. cbn [filter is_sample s_kind map s_name stmt_name log_prior]. repeat split.
    + exact A.
    + unfold entry at 1. cbn [s_name s_value]. now rewrite B.
    + now rewrite D.
Qed.
Lemma at_point_keys cube env p vals L : at_point cube env p vals L -> map fst vals = map stmt_name (filter (fun s => match s with Observed _ _ => false | _ => true end) p).
Proof. induction 1; cbn; congruence. Qed.
Lemma nodup_map_filter {A B} (f : A -> B) g l : NoDup (map f l) -> NoDup (map f (filter g l)).
Proof.
  induction l as [|x l IH]; [constructor|]. cbn. intros H. inversion H as [|? ? Nx Nr]; subst. destruct (g x); [|now apply IH].
  cbn. constructor; [|now apply IH]. intros C. apply Nx. apply in_map_iff in C as (y & E & Hy). apply filter_In in Hy as (Hy & _). rewrite <- E. now apply in_map.
Qed.
Theorem C110_same_model p c vals : names_ok p -> covers c p -> postprocess_fn p c = Ok vals ->
  exists L, log_prob_fn p c = Ok L /\ log_density [] vals p = Ok (fadd (log_prior [] p vals) L)
    /\ forall t, get_trace [] vals p = Ok t -> map (fun s => (s_name s, s_value s)) (filter (fun s => match s_kind s with Given => false | _ => true end) t) = vals.
Proof.
  intros N C H. destruct (C110_target p c N C) as (vals' & L & HA & E1 & E2). assert (vals' = vals) by congruence. subst vals'.
  pose proof (nodup_app_l _ _ N) as N1.
  destruct (exec_plain (coordinates c) vals p [] vals L HA) as (t & Et & A & B & D); [|exact N1|].
  - intros n v _ Hv. apply get_nodup; [|exact Hv]. rewrite (at_point_keys _ _ _ _ _ HA). now apply nodup_map_filter.
  - exists L. split; [exact E1|]. assert (Dt : distinct (map s_name t) = true) by (apply distinct_spec; rewrite D; exact N1).
    unfold log_density, get_trace. rewrite Et. cbn [bind]. rewrite Dt. cbn [bind]. split.
    + f_equal. exact A.
    + intros t' Ht. assert (t' = t) by congruence. subst t'. exact B.
Qed.
Print Assumptions C110_target.
Print Assumptions C110_names.
Print Assumptions C110_same_model.

(** ** columns of the cube *)
Lemma unravel_keys lay : forall v, map fst (unravel_from lay v) = map fst lay.
Proof. induction lay as [|[n k] r IH]; intros v; [reflexivity|]. cbn. now rewrite IH. Qed.
Lemma unravel_concat lay : forall v, length v = fold_right Nat.add 0%nat (map snd lay) -> concat (map snd (unravel_from lay v)) = v.
Proof.
  induction lay as [|[n k] r IH]; intros v H; cbn in H |- *; [now destruct v|].
  rewrite IH; [apply firstn_skipn|]. rewrite skipn_length. lia.
Qed.
Lemma unravel_entry {B} (lay : list (str * nat)) (lab : str -> list B) : (forall n k, In (n, k) lay -> length (lab n) = k) -> forall v,
  length v = fold_right Nat.add 0%nat (map snd lay) -> NoDup (map fst lay) -> forall n k, In (n, k) lay ->
  exists o, (o + k <= length v)%nat /\ get (unravel_from lay v) n = Some (firstn k (skipn o v))
    /\ firstn k (skipn o (flat_map (fun e => lab (fst e)) lay)) = lab n.
Proof.
  induction lay as [|[m j] r IH]; intros HL v Hv N n k Hin; [destruct Hin|]. cbn [map fst] in N. inversion N as [|? ? Nm Nr]; subst. cbn [map snd fold_right] in Hv.
  destruct Hin as [E|Hin].
  - assert (m = n) by congruence. assert (j = k) by congruence. subst m j. exists 0%nat. cbn [unravel_from get skipn flat_map fst]. destruct (str_eqb_spec n n); [|easy].
    split; [lia|]. split; [reflexivity|]. pose proof (HL n k (or_introl eq_refl)) as Lk. rewrite <- Lk, firstn_app, Nat.sub_diag, firstn_all. cbn [firstn]. apply app_nil_r.
  - destruct (IH (fun a b H => HL a b (or_intror H)) (skipn j v)) with (n := n) (k := k) as (o & A & B1 & C1); [rewrite skipn_length; lia|exact Nr|exact Hin|].
    exists (j + o)%nat. rewrite skipn_length in A. split; [lia|]. cbn [unravel_from get flat_map fst]. destruct (str_eqb_spec n m) as [->|Ne].
    + exfalso. apply Nm. apply in_map_iff. now exists (m, k).
    + pose proof (HL m j (or_introl eq_refl)) as Lj. split.
      * rewrite B1. do 2 f_equal. rewrite Nat.add_comm. clear. revert v. induction j as [|j IHj]; intros v; [now rewrite Nat.add_0_r|].
        rewrite Nat.add_succ_r. destruct v as [|x v]; [now rewrite !skipn_nil|]. cbn [skipn]. apply IHj.
      * rewrite skipn_app, Lj. replace (j + o - j)%nat with o by lia. rewrite skipn_all2 by lia. exact C1.
Qed.
Lemma layout_perm p : Permutation (layout p) (map (fun e => (u_name (fst e), nelem (snd e))) (params_dtype p)).
Proof. apply sorted_perm. Qed.
Lemma params_nodup p : NoDup (map stmt_name p) -> NoDup (params_names p).
Proof.
  intros H. assert (E : params_names p = map stmt_name (filter (fun s => match s with Latent _ _ _ => true | _ => false end) p)).
  { clear. unfold params_names. induction p as [|[n sh d|n lp|n f] r IH]; cbn; congruence. }
  rewrite E. now apply nodup_map_filter.
Qed.
Lemma u_name_inj a b : u_name a = u_name b -> a = b.
Proof. unfold u_name. apply app_inv_head. Qed.
Lemma layout_nodup p : NoDup (params_names p) -> NoDup (map fst (layout p)).
Proof.
  intros H. eapply Permutation_NoDup; [symmetry; apply Permutation_map, layout_perm|]. rewrite map_map. cbn [fst].
  rewrite <- (map_map fst u_name). apply FinFun.Injective_map_NoDup; [intros a b; apply u_name_inj|exact H].
Qed.
(** the labels of the columns, see C81, in the layout used here *)
Lemma sorted_items_map {V W} (f : V -> W) (l : list (str * V)) : sorted_items (map (fun e => (fst e, f (snd e))) l) = map (fun e => (fst e, f (snd e))) (sorted_items l).
Proof.
  unfold sorted_items. induction l as [|x l IH]; [reflexivity|]. cbn [map fold_right]. rewrite IH. clear IH. generalize (fold_right insert_str [] l). intros s.
  induction s as [|y s IH]; [reflexivity|]. cbn [map insert_str fst]. destruct (str_leb (fst x) (fst y)); [reflexivity|]. cbn [map]. now rewrite IH.
Qed.
(** Every parameter gets its own block of the columns of the cube, and these
    columns carry the labels of its entries; all columns are used. *)
Theorem C110_columns p v : NoDup (params_names p) -> length v = ndim p ->
  exists c, unravel p v = Ok c /\ concat (map snd c) = v /\ length (cube_columns (params_dtype p)) = ndim p /\
  forall n sh, In (n, sh) (params_dtype p) ->
    exists o, (o + Prop_Nested.size sh <= ndim p)%nat /\ get c (u_name n) = Some (firstn (Prop_Nested.size sh) (skipn o v))
      /\ firstn (Prop_Nested.size sh) (skipn o (cube_columns (params_dtype p))) = ravel_params_names (u_name n) sh.
Proof.
  intros N Hv. exists (unravel_from (layout p) v). unfold unravel. rewrite Hv, Nat.eqb_refl. split; [reflexivity|]. split; [now apply unravel_concat|].
  set (q := map (fun e => (u_name (fst e), snd e)) (params_dtype p)).
  assert (El : layout p = map (fun e => (fst e, nelem (snd e))) (sorted_items q)).
  { unfold layout, q. rewrite <- sorted_items_map. f_equal. now rewrite map_map. }
  assert (Nq : NoDup (map fst (sorted_items q))).
  { pose proof (layout_nodup p N) as Nl. rewrite El, map_map in Nl. exact Nl. }
  set (lab := fun n => match get (sorted_items q) n with Some sh => ravel_params_names n sh | None => [] end).
  assert (Ec : cube_columns (params_dtype p) = flat_map (fun e => lab (fst e)) (layout p)).
  { unfold cube_columns. fold q. rewrite El. assert (S : forall l, incl l (sorted_items q) -> flat_map (fun e => ravel_params_names (fst e) (snd e)) l = flat_map (fun e => lab (fst e)) (map (fun e => (fst e, nelem (snd e))) l)).
    { intros l HI. induction l as [|[k sh] l IHl]; [reflexivity|]. cbn [flat_map map fst snd]. rewrite IHl by (intros x Hx; apply HI; now right). f_equal.
      unfold lab. rewrite (get_nodup (sorted_items q) k sh Nq); [reflexivity|]. apply HI. now left. }
    apply S. intros x Hx. exact Hx. }
  assert (HL : forall n k, In (n, k) (layout p) -> length (lab n) = k).
  { intros n k H. rewrite El in H. apply in_map_iff in H as ([m sh] & E & H). cbn [fst snd] in E. assert (m = n) by congruence. subst m. assert (k = nelem sh) by congruence. subst k.
    unfold lab. rewrite (get_nodup _ _ _ Nq H). apply C81_labels. }
  split.
  - rewrite Ec. unfold ndim. clear -HL. revert HL. generalize (layout p). intros l HL. induction l as [|[n k] l IHl]; [reflexivity|]. cbn [flat_map map snd fold_right fst]. rewrite app_length, IHl by (intros a b H; apply HL; now right). now rewrite (HL n k (or_introl eq_refl)).
  - intros n sh Hin. assert (Hl : In (u_name n, nelem sh) (layout p)).
    { eapply Permutation_in; [symmetry; apply layout_perm|]. apply in_map_iff. now exists (n, sh). }
    destruct (unravel_entry (layout p) lab HL v Hv (layout_nodup p N) _ _ Hl) as (o & A & B & C). exists o. split; [unfold ndim in *; rewrite <- Hv; exact A|]. split; [exact B|].
    rewrite Ec. change (Prop_Nested.size sh) with (nelem sh). rewrite C. unfold lab. rewrite (get_nodup (sorted_items q) (u_name n) sh Nq); [reflexivity|].
    eapply Permutation_in; [symmetry; apply sorted_perm|]. unfold q. apply in_map_iff. now exists (n, sh).
Qed.
Lemma unravel_covers p v c : NoDup (params_names p) -> unravel p v = Ok c -> covers c p.
Proof.
  intros N H n Hn. unfold unravel in H. destruct (length v =? ndim p)%nat eqn:E; [|discriminate]. apply Nat.eqb_eq in E.
  destruct (C110_columns p v N E) as (c' & E1 & _ & _ & H'). unfold unravel in E1. rewrite E, Nat.eqb_refl in E1. assert (c' = c) by congruence. subst c'.
  unfold params_names in Hn. apply in_map_iff in Hn as ([m sh] & Em & Hn). cbn in Em. subst m. destruct (H' n sh Hn) as (o & _ & G & _). eauto.
Qed.

(** ** rows of the libraries *)
(** [values_at p u vals L]: the values and the log-likelihood at the point [u] of
    the cube, given as one array *)
Definition values_at (p : program) (u : value) (vals : list (str * value)) (L : fl) : Prop :=
  exists c, unravel p u = Ok c /\ at_point (coordinates c) [] p vals L.
(** What nautilus and ultranest evaluate is the log-likelihood, whatever derived
    values are appended to the coordinates; with [ignore_nan] only the value that
    is not a number is replaced. *)
Theorem C110_row p u w ignore : names_ok p -> length u = ndim p ->
  exists vals L, values_at p u vals L /\ row_log_prob p ignore (u ++ w) = Ok (if ignore then nan_to_num L else L).
Proof.
  intros N Hu. pose proof (params_nodup p (nodup_app_l _ _ N)) as Np. destruct (C110_columns p u Np Hu) as (c & Ec & _).
  destruct (C110_target p c N (unravel_covers p u c Np Ec)) as (vals & L & HA & E1 & _). exists vals, L. split; [now exists c|].
  unfold row_log_prob. rewrite firstn_app, Hu, Nat.sub_diag. cbn [firstn]. rewrite app_nil_r, <- Hu, firstn_all, Ec. cbn [bind]. rewrite E1. reflexivity.
Qed.
Theorem C110_nan x : exists y, nan_to_num x = Fin y
  /\ (forall z, x = Fin z -> y = z) /\ (x = NaN -> y = - 10 ^ 300) /\ (x = NInf -> forall z, - float_max < z -> y < z).
Proof.
  destruct x; cbn; eexists; (split; [reflexivity|]); repeat split; intros; try discriminate; try congruence; try reflexivity.
Qed.
(** the derived values ultranest shows, and their labels *)
Theorem C110_shown p viz u row shapes : names_ok p -> length u = ndim p -> viz_transform p viz u = Ok row ->
  firstn (ndim p) row = u
  /\ (forall ig, row_log_prob p ig row = row_log_prob p ig u)
  /\ exists vals L, values_at p u vals L
     /\ Forall2 (fun n x => In (n, x) vals) viz (map (fun n => match get vals n with Some x => x | None => [] end) viz)
     /\ row = u ++ concat (map (fun n => match get vals n with Some x => x | None => [] end) viz)
     /\ ((forall n x, In (n, x) vals -> exists sh, get shapes n = Some sh /\ length x = Prop_Nested.size sh) ->
         length (derived_names shapes viz) = (length row - ndim p)%nat).
Proof.
  intros N Hu H. pose proof (params_nodup p (nodup_app_l _ _ N)) as Np. destruct (C110_columns p u Np Hu) as (c & Ec & _).
  destruct (C110_target p c N (unravel_covers p u c Np Ec)) as (vals & L & HA & E1 & E2).
  unfold viz_transform in H. rewrite Ec in H. cbn [bind] in H. rewrite E2 in H. cbn [bind] in H.
  destruct (mapE (fun i => opt_err KeyError (get vals i)) viz) as [vs|] eqn:Ev; [|discriminate]. cbn [bind] in H.
  assert (row = u ++ concat vs) by congruence. subst row. clear H. apply mapE_inv in Ev.
  assert (Evs : vs = map (fun n => match get vals n with Some x => x | None => [] end) viz).
  { clear -Ev. induction Ev as [|n x viz vs Hn _ IH]; [reflexivity|]. cbn. destruct (get vals n) as [y|]; [|discriminate]. cbn in Hn. rewrite IH. congruence. }
  assert (F : firstn (ndim p) (u ++ concat vs) = u) by (rewrite <- Hu, firstn_app, Nat.sub_diag, firstn_all; cbn; apply app_nil_r).
  split; [exact F|]. split.
  - intros ig. unfold row_log_prob. rewrite F. rewrite <- Hu, firstn_all. reflexivity.
  - exists vals, L. split; [now exists c|]. rewrite <- Evs. split; [|split; [reflexivity|]].
    + clear -Ev. induction Ev as [|n x viz vs Hn _ IH]; constructor; [|exact IH]. destruct (get vals n) as [y|] eqn:E; [|discriminate]. cbn in Hn. apply get_in in E. congruence.
    + intros Sh. rewrite app_length, Hu. replace (ndim p + length (concat vs) - ndim p)%nat with (length (concat vs)) by lia. clear -Ev Sh. unfold derived_names.
      induction Ev as [|n x viz vs Hn _ IH]; [reflexivity|]. cbn [flat_map concat]. rewrite !app_length, IH. f_equal.
      destruct (get vals n) as [y|] eqn:E; [|discriminate]. cbn in Hn. assert (y = x) by congruence. subst y. destruct (Sh n x (get_in _ _ _ E)) as (sh & -> & ->). apply C81_labels.
Qed.
Lemma samples_F2 p f (rows : list value) smp : names_ok p ->
  mapE (fun row => bind (unravel p (f row)) (postprocess_fn p)) rows = Ok smp ->
  Forall2 (fun row vals => exists L, values_at p (f row) vals L) rows smp.
Proof.
  intros N H. apply mapE_inv in H. pose proof (params_nodup p (nodup_app_l _ _ N)) as Np. induction H as [|row vals rows smp Hr _ IH]; constructor; [|exact IH].
  destruct (unravel p (f row)) as [c|] eqn:Ec; [|discriminate]. cbn [bind] in Hr.
  destruct (C110_target p c N (unravel_covers p _ c Np Ec)) as (vals' & L & HA & _ & E2). assert (vals' = vals) by congruence. subst vals'. exists L. now exists c.
Qed.
(** Every point nautilus returns becomes the values at that point; a run that
    stopped at a limit raises. *)
Theorem C110_nautilus p pts : names_ok p ->
  (forall smp, nautilus_samples p true pts = Ok smp -> Forall2 (fun u vals => exists L, values_at p u vals L) pts smp)
  /\ (Forall (fun u => length u = ndim p) pts -> exists smp, nautilus_samples p true pts = Ok smp)
  /\ nautilus_samples p false pts = Err RuntimeError.
Proof.
  intros N. split; [intros smp H; now apply (samples_F2 p (fun u => u))|]. split; [|reflexivity].
  intros HF. cbn [nautilus_samples]. pose proof (params_nodup p (nodup_app_l _ _ N)) as Np. induction HF as [|u pts Hu _ (smp & IH)]; [now exists []|].
  destruct (C110_columns p u Np Hu) as (c & Ec & _). destruct (C110_target p c N (unravel_covers p u c Np Ec)) as (vals & L & _ & _ & E2).
  exists (vals :: smp). unfold nautilus_samples in *. cbn [mapE]. rewrite Ec. cbn [bind]. rewrite E2. cbn [bind]. rewrite IH. reflexivity.
Qed.
(** ... and so does every row of ultranest, whatever is appended to it. *)
Theorem C110_ultranest p rows smp : names_ok p -> ultranest_samples p rows = Ok smp ->
  Forall2 (fun row vals => exists L, values_at p (firstn (ndim p) row) vals L) rows smp.
Proof. intros N H. now apply (samples_F2 p (firstn (ndim p))). Qed.

(** ** jaxns *)
Lemma exec_ext conf c c' p : forall env, incl (params_names p) conf -> (forall n, In n (params_names p) -> get c (u_name n) = get c' (u_name n)) -> exec conf c env p = exec conf c' env p.
Proof.
  induction p as [|[n sh d|n lp|n f] r IH]; intros env HI H; [reflexivity| | |].
  - cbn [exec]. assert (In n conf) by (apply HI; left; reflexivity). rewrite (proj2 (str_in_spec n conf) H0). rewrite (H n) by (left; reflexivity).
    destruct (get c' (u_name n)) as [x|]; [|reflexivity]. cbn [opt_err bind]. cbv zeta. rewrite IH; [reflexivity| |].
    + intros k Hk. apply HI. right. exact Hk.
    + intros k Hk. apply H. right. exact Hk.
  - cbn [exec]. rewrite IH; [reflexivity|exact HI|exact H].
  - cbn [exec]. rewrite IH; [reflexivity|exact HI|exact H].
Qed.
Lemma get_u_map {V} (l : list (str * V)) n : get (map (fun e => (u_name (fst e), snd e)) l) (u_name n) = get l n.
Proof.
  induction l as [|[k v] l IH]; [reflexivity|]. cbn [map get fst snd]. rewrite IH.
  destruct (str_eqb_spec (u_name n) (u_name k)) as [E|E], (str_eqb_spec n k) as [E'|E']; try reflexivity; [exfalso; apply E'; now apply u_name_inj|subst; now exfalso].
Qed.
(** jaxns explores the same function of the cube: passing its coordinates on under
    the names of the parameters loses nothing. *)
Theorem C110_jaxns p u : NoDup (params_names p) -> covers u p ->
  bind (jaxns_prior p u) (jaxns_log_likelihood p) = log_prob_fn p u.
Proof.
  intros N C. assert (exists q, jaxns_prior p u = Ok q /\ forall n, In n (params_names p) -> get q n = get u (u_name n)) as (q & E & Hq).
  { unfold jaxns_prior. revert N C. unfold covers. generalize (params_names p). intros l N C. induction l as [|n l IH].
    - exists []. split; [reflexivity|intros ? []].
    - inversion N as [|? ? Nn Nl]; subst. destruct (IH Nl (fun k Hk => C k (or_intror Hk))) as (q & E & Hq). destruct (C n (or_introl eq_refl)) as (x & Ex).
      exists ((n, x) :: q). split.
      + cbn [mapE]. rewrite Ex. cbn [opt_err bind]. rewrite E. reflexivity.
      + intros k [<-|Hk]; cbn [get]; [destruct (str_eqb_spec n n); [now rewrite Ex|easy]|]. destruct (str_eqb_spec k n) as [->|Ne]; [contradiction|now apply Hq]. }
  rewrite E. cbn [bind]. unfold jaxns_log_likelihood, log_prob_fn, log_density, get_trace.
  rewrite (exec_ext (params_names p) (map (fun e => (u_name (fst e), snd e)) q) u p []); [reflexivity|intros k h; exact h|].
  intros n Hn. rewrite get_u_map. now apply Hq.
Qed.
(** every sample handed out is the transformed image of a point of the run; before
    the run there is none *)
Theorem C110_jaxns_samples p points w : names_ok p -> Forall (fun c => covers c p) points -> jaxns_run p points = Ok w ->
  (forall draw smp, jaxns_get_samples (Some w) draw = Ok smp ->
     Forall2 (fun i vals => exists c L, nth_error points i = Some c /\ at_point (coordinates c) [] p vals L) draw smp)
  /\ forall draw, jaxns_get_samples None draw = Err RuntimeError.
Proof.
  intros N HC H. split; [|reflexivity]. intros draw smp Hs. cbn [jaxns_get_samples] in Hs. apply mapE_inv in Hs. apply mapE_inv in H.
  induction Hs as [|i vals draw smp Hi _ IH]; constructor; [|exact IH]. destruct (nth_error w i) as [y|] eqn:E; [|discriminate]. cbn in Hi. assert (y = vals) by congruence. subst y. clear Hi IH.
  revert i HC E. induction H as [|c y points w Hc _ IH]; intros [|i] HC E; cbn in E; try discriminate.
  - assert (y = vals) by congruence. subst y. inversion HC; subst. destruct (C110_target p c N) as (vals' & L & HA & _ & E2); [assumption|]. assert (vals' = vals) by congruence. subst vals'.
    exists c, L. now split.
  - inversion HC; subst. destruct (IH i) as (c' & L & A & B); try assumption. now exists c', L.
Qed.

(** ** settings *)
Lemma get_setdefault {V} (d : list (str * V)) k v k' : get (setdefault d k v) k' = match get d k' with Some x => Some x | None => if str_eqb k' k then Some v else None end.
Proof.
  unfold setdefault. destruct (get d k) as [x|] eqn:E.
  - destruct (str_eqb_spec k' k) as [->|Ne]; [now rewrite E|now destruct (get d k')].
  - rewrite get_put. destruct (str_eqb_spec k' k) as [->|Ne]; [now rewrite E|now destruct (get d k')].
Qed.
Lemma get_puts_any {V} (kvs : list (str * V)) k : forall d, NoDup (map fst kvs) -> get (puts d kvs) k = match get kvs k with Some v => Some v | None => get d k end.
Proof.
  intros d N. destruct (get kvs k) as [v|] eqn:E.
  - apply get_in in E. now apply get_puts.
  - apply get_puts_absent. intros C. apply get_none_iff in E. contradiction.
Qed.
(** jaxns gets the arguments of the call, extra ones included, and never the
    defaults of the wrapper; the evidence tolerance is the user's or the default *)
Theorem C110_jaxns_settings {V} (named extra : list (str * V)) lp dv ms k : NoDup (map fst extra) ->
  Forall (fun n => In n (map fst named)) [s2l "num_live_points"; s2l "devices"; s2l "max_samples"] ->
  get (jaxns_constructor named extra lp dv ms) k = match get extra k with Some v => Some v | None => get named k end.
Proof.
  intros N HF. unfold jaxns_constructor. cbv zeta. rewrite !get_setdefault. rewrite get_puts_any by exact N.
  destruct (get extra k) as [v|]; [reflexivity|]. destruct (get named k) as [v|] eqn:E; [reflexivity|]. apply get_none_iff in E.
  rewrite Forall_forall in HF.
  destruct (str_eqb_spec k (s2l "num_live_points")) as [->|_]; [exfalso; apply E, HF; cbn; tauto|].
  destruct (str_eqb_spec k (s2l "devices")) as [->|_]; [exfalso; apply E, HF; cbn; tauto|].
  destruct (str_eqb_spec k (s2l "max_samples")) as [->|_]; [exfalso; apply E, HF; cbn; tauto|]. reflexivity.
Qed.
Theorem C110_jaxns_termination {V} (dlogz : V) t k : (forall l, t = Some l -> NoDup (map fst l)) ->
  get (jaxns_termination dlogz t) k = match (match t with Some l => get l k | None => None end) with
    | Some v => Some v | None => if str_eqb k (s2l "dlogZ") then Some dlogz else None end.
Proof.
  intros N. unfold jaxns_termination. cbv zeta. rewrite get_setdefault. rewrite get_puts_any by (destruct t; [now apply N|constructor]).
  destruct t as [l|]; [|cbn [get]; destruct (str_eqb k (s2l "dlogZ")); reflexivity].
  destruct (get l k); [reflexivity|]. cbn [get]. destruct (str_eqb k (s2l "dlogZ")); reflexivity.
Qed.
(** nautilus always runs in a pool, one point at a time; the effective sample size
    and the discarding of the exploration phase cannot be overridden, the rest can *)
Theorem C110_nautilus_settings {V} (pool yes no ess : V) user k :
  get (nautilus_constructor pool yes no user) k =
    (if str_eqb k (s2l "vectorized") then Some no else match get user k with Some v => Some v | None => if str_eqb k (s2l "pool") then Some pool else None end)
  /\ get (nautilus_run_kwargs ess yes user) k =
    (if str_eqb k (s2l "discard_exploration") then Some yes else if str_eqb k (s2l "n_eff") then Some ess
     else match get user k with Some v => Some v | None => if str_eqb k (s2l "verbose") then Some yes else None end).
Proof.
  split.
  - unfold nautilus_constructor. cbv zeta. assert (exists x, get (setdefault user (s2l "pool") pool) (s2l "pool") = Some x) as (x & ->).
    { rewrite get_setdefault. destruct (get user (s2l "pool")); [eauto|]. destruct (str_eqb_spec (s2l "pool") (s2l "pool")); [eauto|easy]. }
    rewrite get_put, get_setdefault. reflexivity.
  - unfold nautilus_run_kwargs. rewrite get_put. destruct (str_eqb k (s2l "discard_exploration")); [reflexivity|].
    rewrite get_setdefault, get_put. destruct (str_eqb_spec k (s2l "n_eff")); reflexivity.
Qed.
Theorem C110_ultranest_settings {V} (ess : V) user k : get (ultranest_run_kwargs ess user) k = if str_eqb k (s2l "min_ess") then Some ess else get user k.
Proof. unfold ultranest_run_kwargs. apply get_put. Qed.

Print Assumptions C110_columns.
Print Assumptions C110_row.
Print Assumptions C110_nan.
Print Assumptions C110_shown.
Print Assumptions C110_nautilus.
Print Assumptions C110_ultranest.
Print Assumptions C110_jaxns.
Print Assumptions C110_jaxns_samples.
Print Assumptions C110_jaxns_settings.
Print Assumptions C110_jaxns_termination.
Print Assumptions C110_nautilus_settings.
Print Assumptions C110_ultranest_settings.

(** ** a concrete model: a norm [K] between 0 and 10, a width [S] between 0 and
    [K], the derived [D = K + S], and one observation *)
Definition ex_uniform (lo hi : R) : site_dist :=
  {| sd_logp := fun _ => Fin (- ln (hi - lo)); sd_unit := map (fun q => lo + (hi - lo) * q) |}.
Definition ex_entry (env : list value) (i : nat) : R := nth 0 (nth i env []) 0.
Definition ex_program : program :=
  [ Latent (s2l "S") [] (fun _ => ex_uniform 0 10);
    Latent (s2l "K") [] (fun env => ex_uniform 0 (ex_entry env 0));
    Derived (s2l "D") (fun env => [ex_entry env 0 + ex_entry env 1]);
    Observed (s2l "obs") (fun env => Fin (- ex_entry env 1 * ex_entry env 1)) ].
Example C110_ex : names_ok ex_program /\ ndim ex_program = 2%nat
  /\ unravel ex_program [0.5; 0.2] = Ok [(s2l "u_K", [0.5]); (s2l "u_S", [0.2])]
  /\ exists S K D, values_at ex_program [0.5; 0.2] [(s2l "S", [S]); (s2l "K", [K]); (s2l "D", [D])] (Fin (- K * K + 0)) /\ S = 2 /\ K = 1 /\ D = 3.
Proof.
  assert (U : unravel ex_program [0.5; 0.2] = Ok [(s2l "u_K", [0.5]); (s2l "u_S", [0.2])]) by reflexivity.
  split; [|split; [reflexivity|split; [exact U|]]].
  - apply distinct_spec. reflexivity.
  - exists (0 + (10 - 0) * 0.2), (0 + (0 + (10 - 0) * 0.2 - 0) * 0.5), (0 + (10 - 0) * 0.2 + (0 + (0 + (10 - 0) * 0.2 - 0) * 0.5)).
    split; [|repeat split; lra]. exists [(s2l "u_K", [0.5]); (s2l "u_S", [0.2])]. split; [exact U|].
    apply at_latent. apply at_latent. apply at_derived. exact (at_observed _ _ _ _ _ _ _ (at_nil _ _)).
Qed.
(** a model that cannot be sampled: parameters [K] and [u_K] *)
Definition ex_clash : program :=
  [ Latent (s2l "K") [] (fun _ => ex_uniform 0 10); Latent (s2l "u_K") [] (fun _ => ex_uniform 0 1); Observed (s2l "obs") (fun env => Fin (ex_entry env 0)) ].
Theorem C110_names_refuted : NoDup (map stmt_name ex_clash)
  /\ forall c, covers c ex_clash -> forall L, log_prob_fn ex_clash c <> Ok L.
Proof.
  split; [apply distinct_spec; reflexivity|]. intros c C L H. assert (N : names_ok ex_clash) by (apply (C110_names ex_clash c C); eauto).
  apply distinct_spec in N. vm_compute in N. discriminate.
Qed.
Print Assumptions C110_names_refuted.

(** the log density is the floating point sum of its terms: a number if all are, NaN exactly if a term is NaN or two are
    infinities of opposite signs, otherwise the infinity that occurs *)
Theorem C110_sum : forall l,
  (forall xs, l = map Fin xs -> fsum l = Fin (rsum xs)) /\
  (fsum l = NaN <-> In NaN l \/ (In PInf l /\ In NInf l)) /\
  (fsum l = NInf <-> In NInf l /\ ~ In PInf l /\ ~ In NaN l) /\
  (fsum l = PInf <-> In PInf l /\ ~ In NInf l /\ ~ In NaN l).
Proof.
  intros l. split.
  - intros xs ->. induction xs as [|x xs IH]; [reflexivity|]. cbn [map fsum fold_right]. fold (fsum (map Fin xs)). rewrite IH. reflexivity.
  - induction l as [|a l (IH1 & IH2 & IH3)]; [cbn; intuition discriminate|]. cbn [fsum fold_right]. fold (fsum l). cbn [In].
    destruct a; destruct (fsum l) as [y| | |] eqn:E; cbn [fadd];
      (assert (D1 : fsum l = NaN <-> In NaN l \/ In PInf l /\ In NInf l) by (rewrite E; exact IH1));
      (assert (D2 : fsum l = NInf <-> In NInf l /\ ~ In PInf l /\ ~ In NaN l) by (rewrite E; exact IH2));
      (assert (D3 : fsum l = PInf <-> In PInf l /\ ~ In NInf l /\ ~ In NaN l) by (rewrite E; exact IH3));
      clear D1 D2 D3;
      (assert (K : forall a b : fl, a <> b -> (a = b <-> False)) by (intros; tauto));
      repeat match goal with
      | H : (?a = ?b <-> _) |- _ => first [ (assert (Hx : a <> b) by discriminate; rewrite (K a b Hx) in H; clear Hx) | (assert (Hx : a = b) by reflexivity; apply (proj1 H) in Hx; clear H) ]
      end;
      repeat match goal with
      | |- context [@eq fl ?a ?b] => first [ (assert (Hx : a <> b) by discriminate; rewrite (K a b Hx); clear Hx) ]
      end; intuition congruence.
Qed.
Print Assumptions C110_sum.
