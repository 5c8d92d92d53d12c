(** Theorems for C30, C31, C32, C36, C37, C38 (model algebra, flux, normalisation). *)
From Verif Require Import RBase Expr ExprFacts ModelAlg ModelAlgProofs.
From Coq Require Import List.

(** ** C30.  [env] gives the spectrum of each printed component name and [cf] the
    action of each printed convolution name.  The printed name reads, in one way only,
    as an expression with the value of the model, on every energy grid. *)
Theorem C30_name_denotes_model : forall nm comp conv env cf (m : model),
  named nm comp conv env cf m ->
  exists ex, reads (mlabel nm m) ex /\ (forall ex', reads (mlabel nm m) ex' -> ex' = ex) /\
             forall egrid, eval (Salg cf) env ex egrid = meval comp conv m egrid.
Proof.
  intros nm comp conv env cf m H. destruct (mlabel_reads nm comp conv env cf m H) as (e & He & Hv).
  exists e. split; [exact He|]. split; [intros e' He'; now apply (reads_det _ _ _ He')|]. intros g. now rewrite Hv.
Qed.
Print Assumptions C30_name_denotes_model.
Open Scope string_scope.
Definition nm3 (c : nat) : string := match c with 0%nat => "wabs" | 1%nat => "pl" | 2%nat => "bb" | _ => "zash" end.
Example C30_ex : (* wabs * (zash(pl) + bb) *)
  mlabel nm3 (MBin MTimes (MUni 0 Mmul) (MBin MPlus (MApp 3 (MUni 1 Madd)) (MUni 2 Madd)))
  = [TName "wabs"; TMul; TL; TFun "zash"; TL; TName "pl"; TR; TAdd; TName "bb"; TR].
Proof. reflexivity. Qed.
Example C30_ex_read :
  pE 50 (mlabel nm3 (MBin MTimes (MUni 0 Mmul) (MBin MPlus (MApp 3 (MUni 1 Madd)) (MUni 2 Madd))))
  = Some (EBin Mul (EVar "wabs") (EBin Expr.Add (ECall "zash" [EVar "pl"]) (EVar "bb")), []).
Proof. reflexivity. Qed.
Close Scope string_scope.

(** ** C31 *)
Theorem C31_sum_accepted_iff : forall l r,
  (exists m, mk_bin MPlus l r = Ok m) <-> type_of l = Madd /\ type_of r = Madd.
Proof. exact mk_bin_plus. Qed.
Print Assumptions C31_sum_accepted_iff.
Theorem C31_product_accepted_iff : forall l r,
  (exists m, mk_bin MTimes l r = Ok m) <->
  type_of l <> Mconv /\ type_of r <> Mconv /\ (type_of l = Mmul \/ type_of r = Mmul).
Proof. exact mk_bin_times. Qed.
Print Assumptions C31_product_accepted_iff.
Theorem C31_convolution_accepted_iff : forall cid supported m,
  (exists x, mk_app (MOp cid supported) m = Ok x) <-> In (type_of m) supported.
Proof. exact mk_app_iff. Qed.
Print Assumptions C31_convolution_accepted_iff.
(** [dim] (in ModelAlgProofs) is the exponent of "flux" computed by dimensional
    analysis, undefined when a sum adds different dimensions *)
Theorem C31_accepted_models_have_a_dimension : forall m, built m ->
  dim m = match type_of m with Madd => Some 1%nat | Mmul => Some 0%nat | Mconv => None end.
Proof. intros m H. exact (proj1 (built_dim m H)). Qed.
Print Assumptions C31_accepted_models_have_a_dimension.
(** only bare convolution operators have no dimension *)
Theorem C31_only_operators_are_dimensionless : forall m, built m -> type_of m = Mconv ->
  exists c s, m = MOp c s.
Proof. intros m H T. destruct (built_dim m H) as [_ Q]. destruct (Q T) as (c & s & E & _). eauto. Qed.
Print Assumptions C31_only_operators_are_dimensionless.
Example C31_ex : exists m, mk_bin MTimes (MUni 0 Mmul) (MBin MPlus (MUni 1 Madd) (MUni 2 Madd)) = Ok m /\ dim m = Some 1%nat.
Proof. eexists. split; reflexivity. Qed.
Example C31_ex_bad : mk_bin MPlus (MUni 0 Mmul) (MUni 1 Mmul) = Err TypeError /\
  mk_bin MTimes (MUni 0 Madd) (MUni 1 Madd) = Err TypeError.
Proof. split; reflexivity. Qed.

(** ** C32.  Proved when (a) every convolution applied preserves sums (true of ZAShift,
    ZMShift, VAShift, VMShift below) and (b) each additive component occurs once in the
    model, under a name of its own; refuted without (a) and without (b). *)
Theorem C32_components_sum_partial : forall nm comp conv m d isadd egrid n,
  built m -> type_of m = Madd -> convs_linear conv m ->
  NoDup (map nm (aleaves m)) ->
  (forall c t, In (c, t) (uleaves m) -> isadd (nm c) = mtype_eqb t Madd) ->
  comps_dict nm comp conv m = Some d ->
  Forall (fun kv => length (snd kv egrid) = n) d ->
  forall bin, nth bin (meval comp conv m egrid) 0 = rsum (map (fun kv : ltree * spectrum => nth bin (snd kv egrid) 0) d).
Proof.
  intros nm comp conv m d isadd egrid n B T L N Hty D F bin. pose proof (built_legal m B) as W.
  unfold comps_dict in D. destruct (_ <=? _)%nat; [discriminate|]. injection D as D'.
  rewrite dict_nodup in D' by (eapply comps_labels_nodup; eassumption).
  destruct (comps_total comp conv m W T L) as (c & cs & E & S). rewrite E in D'.
  rewrite <- S. subst d. cbn [map] in F. inversion F as [|? ? F1 F2]; subst.
  destruct (total_nth (map (meval comp conv) cs) (meval comp conv c) egrid (length (snd (llabel nm c, meval comp conv c) egrid)) bin) as [_ Q].
  - reflexivity.
  - rewrite Forall_map in *. exact F2.
  - rewrite Q. cbn [map snd]. rewrite !map_map. reflexivity.
Qed.
Print Assumptions C32_components_sum_partial.
(** when no decomposition is reported the model has a single additive component *)
Theorem C32_no_components : forall nm comp conv m, built m -> type_of m = Madd ->
  comps_dict nm comp conv m = None -> length (additive_comps m) = 1%nat.
Proof.
  intros nm comp conv m B T H. unfold comps_dict in H. destruct (Nat.leb_spec (length (additive_comps m)) 1); [|discriminate].
  destruct (aleaves_comps m (built_legal m B) T) as [A1 A2].
  destruct (comps_total (fun _ _ => []) (fun _ f => f) m (built_legal m B) T) as (c & cs & E & _).
  { clear. induction m; cbn; auto. }
  rewrite E in *. cbn in *. lia.
Qed.
Print Assumptions C32_no_components.
Theorem C32_shifts_preserve_sums : forall k f g,
  zashift k (sadd f g) = sadd (zashift k f) (zashift k g) /\
  zmshift k (sadd f g) = sadd (zmshift k f) (zmshift k g) /\
  vshift k (sadd f g) = sadd (vshift k f) (vshift k g).
Proof. intros. auto using zashift_linear, zmshift_linear, vshift_linear. Qed.
Print Assumptions C32_shifts_preserve_sums.
Definition unit_spec : spectrum := fun g => map (fun _ => 1) (diff g).
(** the same component used twice: [m + m] reports one entry *)
Theorem C32_repeated_component_refuted : exists nm comp conv m d egrid, built m /\ type_of m = Madd /\
  comps_dict nm comp conv m = Some d /\
  nth 0 (meval comp conv m egrid) 0 = 2 /\ rsum (map (fun kv : ltree * spectrum => nth 0 (snd kv egrid) 0) d) = 1.
Proof.
  exists nm3, (fun _ => unit_spec), (fun _ f => f), (MBin MPlus (MUni 1 Madd) (MUni 1 Madd)).
  eexists. exists [1; 2]. split; [eapply (b_bin MPlus); [apply (b_uni 1 Madd)|apply (b_uni 1 Madd)|reflexivity]; discriminate|].
  split; [reflexivity|]. split; [reflexivity|]. cbn. split; lra.
Qed.
Print Assumptions C32_repeated_component_refuted.
(** a flux normalisation: [PhFlux(a + b)] gives the total flux F, its two reported
    components F each *)
Theorem C32_flux_normalisation_refuted : exists nm comp conv m d egrid, built m /\ type_of m = Madd /\
  conv = (fun _ => phflux 1 egrid) /\ NoDup (map nm (aleaves m)) /\
  comps_dict nm comp conv m = Some d /\
  nth 0 (meval comp conv m egrid) 0 = 1 /\ rsum (map (fun kv : ltree * spectrum => nth 0 (snd kv egrid) 0) d) = 2.
Proof.
  exists nm3, (fun _ => unit_spec), (fun _ => phflux 1 [1; 2]), (MApp 3 (MBin MPlus (MUni 1 Madd) (MUni 2 Madd))).
  eexists. exists [1; 2]. split.
  { eapply (b_app (MOp 3 [Madd]) (MBin MPlus (MUni 1 Madd) (MUni 2 Madd))); [apply b_op; cbn; intuition discriminate| |reflexivity].
    eapply (b_bin MPlus (MUni 1 Madd) (MUni 2 Madd)); [apply b_uni|apply b_uni|reflexivity]; discriminate. }
  split; [reflexivity|]. split; [reflexivity|]. split; [repeat constructor; cbn; intuition discriminate|].
  split; [reflexivity|]. cbn. unfold rsum; cbn. split; lra.
Qed.
Print Assumptions C32_flux_normalisation_refuted.
Example C32_ex : exists d, comps_dict nm3 (fun _ => unit_spec) (fun _ => zashift 1)
  (MBin MTimes (MUni 0 Mmul) (MBin MPlus (MApp 3 (MUni 1 Madd)) (MUni 2 Madd))) = Some d /\ length d = 2%nat.
Proof. eexists. split; reflexivity. Qed.

(** ** C36.  [binwise]: each bin is integrated on its own; true of every model built
    from elisa's integration schemes, sums, products and convolutions. *)
Theorem C36_models_are_binwise : forall comp conv m,
  (forall c, (exists add k, comp c = trapz add k \/ comp c = simpson add k) \/ (exists F, comp c = anaint F)) ->
  (forall c, exists k g, conv c = zashift k \/ conv c = zmshift k \/ conv c = vshift k \/ conv c = phflux k g \/ conv c = enflux k g) ->
  binwise (meval comp conv m).
Proof.
  intros comp conv m Hc Hv. apply meval_binwise.
  - intros c. destruct (Hc c) as [(a & k & [-> | ->])|(F & ->)]; [apply trapz_binwise|apply simpson_binwise|apply anaint_binwise].
  - intros c. destruct (Hv c) as (k & g & [-> |[-> |[-> |[-> | ->]]]]);
      [apply zashift_keeps|apply zmshift_keeps|apply vshift_keeps|apply phflux_keeps|apply enflux_keeps].
Qed.
Print Assumptions C36_models_are_binwise.
Theorem C36_flux_additive_over_bands : forall energy f low b high, binwise f ->
  flux energy f (low ++ b :: high) = flux energy f (low ++ [b]) + flux energy f (b :: high).
Proof. exact flux_split. Qed.
Print Assumptions C36_flux_additive_over_bands.
Theorem C36_flux_linear : forall energy f g k e, increasing e ->
  length (f e) = (length e - 1)%nat -> length (g e) = (length e - 1)%nat ->
  flux energy (sadd f g) e = flux energy f e + flux energy g e /\
  flux energy (fun e => vscale k (f e)) e = k * flux energy f e.
Proof. intros. split; [now apply flux_sum|now apply flux_scale]. Qed.
Print Assumptions C36_flux_linear.
Theorem C36_flux_nonneg : forall energy f e, increasing e -> length (f e) = (length e - 1)%nat ->
  Forall (fun x => 0 <= x) (f e) -> 0 <= flux energy f e.
Proof. exact flux_nonneg. Qed.
Print Assumptions C36_flux_nonneg.
(** the photon flux is the sum of the photons in the bins; the energy flux weights
    each bin by its (geometric) mid energy in erg *)
Theorem C36_flux_meaning : forall f e, increasing e -> length (f e) = (length e - 1)%nat ->
  flux false f e = rsum (f e) /\ flux true f e = rsum (map2 Rmult (weights e) (f e)).
Proof. intros. split; [now apply flux_photon|now apply flux_energy]. Qed.
Print Assumptions C36_flux_meaning.
(** the grids elisa builds satisfy the hypothesis *)
Theorem C36_grids : forall log a b n, a < b -> (log = true -> 0 < a) -> (2 <= n)%nat ->
  increasing (mk_grid log a b n) /\ length (mk_grid log a b n) = n.
Proof. intros. split; [now apply mk_grid_increasing|apply mk_grid_length]. Qed.
Print Assumptions C36_grids.
(** the integration schemes are exact for constants (and for affine, resp. cubic continua) *)
Theorem C36_quadrature_exact : forall p q r s a b,
  trapz true (fun x => p + q * x) [a; b] = [p * (b - a) + q * (b ^ 2 - a ^ 2) / 2] /\
  simpson true (fun x => p + q * x + r * x ^ 2 + s * x ^ 3) [a; b] =
    [p * (b - a) + q * (b ^ 2 - a ^ 2) / 2 + r * (b ^ 3 - a ^ 3) / 3 + s * (b ^ 4 - a ^ 4) / 4] /\
  trapz false (fun _ => p) [a; b] = [p] /\ simpson false (fun _ => p) [a; b] = [p].
Proof.
  intros. split; [apply trapz_affine|]. split; [apply simpson_cubic|]. split; [|apply simpson_mean_const].
  rewrite trapz_mean. f_equal. lra.
Qed.
Print Assumptions C36_quadrature_exact.
Example C36_ex : flux false (trapz true (fun x => x)) [1; 2; 4] = 15 / 2 /\
  flux false (trapz true (fun x => x)) [1; 2] = 3 / 2 /\ flux false (trapz true (fun x => x)) [2; 4] = 6.
Proof. unfold flux, ne, rsum. cbn. lra. Qed.

(** ** C37 *)
Theorem C37_photon_flux_is_F : forall F log emin emax ngrid f,
  emin < emax -> (log = true -> 0 < emin) -> (2 <= ngrid)%nat ->
  let fg := mk_grid log emin emax ngrid in
  length (f fg) = (length fg - 1)%nat -> flux false f fg <> 0 ->
  flux false (phflux F fg f) fg = F.
Proof.
  intros F log emin emax ngrid f H Hl Hn fg L N.
  assert (I : increasing fg) by (apply mk_grid_increasing; assumption).
  apply phflux_flux; [exact I|exact L|]. now rewrite <- flux_photon.
Qed.
Print Assumptions C37_photon_flux_is_F.
Theorem C37_energy_flux_is_F : forall F log emin emax ngrid f,
  emin < emax -> (log = true -> 0 < emin) -> (2 <= ngrid)%nat ->
  let fg := mk_grid log emin emax ngrid in
  length (f fg) = (length fg - 1)%nat -> flux true f fg <> 0 ->
  flux true (enflux F fg f) fg = F.
Proof.
  intros F log emin emax ngrid f H Hl Hn fg L N.
  assert (I : increasing fg) by (apply mk_grid_increasing; assumption).
  now apply enflux_flux.
Qed.
Print Assumptions C37_energy_flux_is_F.
Theorem C37_rescaling_is_irrelevant : forall F log emin emax ngrid f k,
  emin < emax -> (log = true -> 0 < emin) -> (2 <= ngrid)%nat -> k <> 0 ->
  let fg := mk_grid log emin emax ngrid in
  length (f fg) = (length fg - 1)%nat ->
  (flux false f fg <> 0 -> forall egrid, phflux F fg (fun e => vscale k (f e)) egrid = phflux F fg f egrid) /\
  (flux true f fg <> 0 -> forall egrid, enflux F fg (fun e => vscale k (f e)) egrid = enflux F fg f egrid).
Proof.
  intros F log emin emax ngrid f k H Hl Hn Hk fg L.
  assert (I : increasing fg) by (apply mk_grid_increasing; assumption).
  split; intros N egrid.
  - rewrite flux_photon in N by assumption. now rewrite phflux_rescale.
  - rewrite flux_energy in N by assumption. now rewrite enflux_rescale.
Qed.
Print Assumptions C37_rescaling_is_irrelevant.
(** the shape is kept: the normalised model is the model times one constant *)
Theorem C37_shape_kept : forall F fg f,
  (exists c, forall e, phflux F fg f e = vscale c (f e)) /\ (exists c, forall e, enflux F fg f e = vscale c (f e)).
Proof. intros. split; eexists; intros e; reflexivity. Qed.
Print Assumptions C37_shape_kept.
Example C37_ex : let f := trapz true (fun x => x) in flux false f (mk_grid false 1 2 2) = 3 / 2 /\
  flux false (phflux 7 (mk_grid false 1 2 2) f) (mk_grid false 1 2 2) = 7.
Proof.
  cbv zeta. assert (E : mk_grid false 1 2 2 = [1; 2]).
  { unfold mk_grid, linspace. cbn. f_equal; [|f_equal]; lra. }
  split; [rewrite E; unfold flux, ne, rsum; cbn; lra|].
  apply C37_photon_flux_is_F; try lra; try lia; try discriminate; rewrite E; [reflexivity|].
  unfold flux, ne, rsum; cbn; lra.
Qed.

(** ** C38 *)
Theorem C38_current_settings_are_used : forall emin emax ngrid elog s0 ops,
  ninit emin emax ngrid elog = Ok s0 ->
  let s := nrun s0 ops in
  let c := n_conf s in
  n_emin c < n_emax c /\
  snd (nstep s NEval) = Some (mk_grid (n_log c) (n_emin c) (n_emax c) (n_grid c)).
Proof.
  intros emin emax ngrid elog s0 ops H s c. assert (I : ninv s) by (apply nrun_inv; eapply ninit_inv; exact H).
  split; [exact (proj1 I)|now apply neval_current].
Qed.
Print Assumptions C38_current_settings_are_used.
(** a setting reads back as the last accepted assignment *)
Theorem C38_assignments_take_effect : forall s v b n,
  (fst (fst (nstep s (NSetEmin v))) = s \/ n_emin (n_conf (fst (fst (nstep s (NSetEmin v))))) = v) /\
  (snd (fst (nstep s (NSetEmin v))) = None <-> v < n_emax (n_conf s)) /\
  (snd (fst (nstep s (NSetEmax v))) = None <-> n_emin (n_conf s) < v) /\
  (snd (fst (nstep s (NSetEmin v))) = None -> n_emin (n_conf (fst (fst (nstep s (NSetEmin v))))) = v) /\
  (snd (fst (nstep s (NSetEmax v))) = None -> n_emax (n_conf (fst (fst (nstep s (NSetEmax v))))) = v) /\
  n_grid (n_conf (fst (fst (nstep s (NSetNgrid n))))) = n /\
  n_log (n_conf (fst (fst (nstep s (NSetElog b))))) = b.
Proof.
  intros s v b n. cbn [nstep].
  destruct (Rleb_spec (n_emax (n_conf s)) v), (Rleb_spec v (n_emin (n_conf s))); cbn;
    repeat split; auto; intros; try discriminate; try lra; try (now left); try (now right).
Qed.
Print Assumptions C38_assignments_take_effect.
Theorem C38_rejected_assignment_is_noop : forall s o s' e g, nstep s o = (s', Some e, g) -> s' = s.
Proof. exact nstep_rejected. Qed.
Print Assumptions C38_rejected_assignment_is_noop.
Example C38_ex : exists s0, ninit 1 10 None None = Ok s0 /\
  n_emax (n_conf (nrun s0 [NEval; NSetEmax 20; NSetEmin 30; NEval])) = 20.
Proof.
  unfold ninit. destruct (Rleb_spec 10 1); [lra|]. eexists. split; [reflexivity|].
  unfold nrun. cbn [fold_left nstep fst n_prev n_conf n_emin n_emax with_conf]. 
  destruct (Rleb_spec 20 1); [lra|]. cbn [fst n_conf with_conf n_emax].
  destruct (Rleb_spec 20 30); [|lra]. cbn [fst n_conf with_conf n_emax n_prev].
  destruct (nconf_eqb _ _); reflexivity.
Qed.
