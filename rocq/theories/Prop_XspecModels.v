(** C116: the classes made from XSPEC's own description of its models. *)
From Coq Require Import Ascii String Lia Lra.
From Verif Require Import RBase Base Param Namespace NamespaceProofs HelperData HelperDataProofs HelperNames HelperNamesProofs Batch BatchProofs ParamArg ParamProofs Prop_ParamArg ModelAlg Xspec Prop_Xspec
  Classes Prop_Classes XspecModels.
From Coq Require Import List.
Open Scope list_scope.
Open Scope R_scope.

(** ** specification *)
(** the argument of the class that stands for XSPEC's parameter of this name *)
Definition dotless (s : str) : Prop := ~ In "."%char s.
(** the limits of a parameter: a switch has none *)
Definition low (p : xparam) : R := match xp_min p with Some x => x | None => -1 end.
Definition high (p : xparam) : R := match xp_max p with Some x => x | None => 10 ^ 10 end.
Definition stands_for (p : xparam) (g : pconfig) : Prop :=
  g_name g = py_name (xp_name p) /\ g_default g = xp_default p /\ g_min g = low p /\ g_max g = high p /\ g_fixed g = xp_fixed p /\ g_log g = false.
Definition is_norm_config (g : pconfig) : Prop :=
  g_name g = s2l "norm" /\ g_default g = 1 /\ g_min g = / 10 ^ 10 /\ g_max g = 10 ^ 10 /\ g_fixed g = false /\ g_log g = false.
Definition kind_of (i : xinfo) (k : xkind) : Prop :=
  match xi_type i, k with XAdd, KAdd => True | XMul, KMul => True
  | XCon, KCon t => (In (xi_name i) (map s2l ["partcov"; "vmshift"; "zmshift"]%string) /\ t = Mmul) \/ (~ In (xi_name i) (map s2l ["partcov"; "vmshift"; "zmshift"]%string) /\ t = Madd)
  | _, _ => False end.
(** names a class uses for itself *)
Definition reserved (t : xtype) : list str :=
  map s2l ["self"; "latex"; "grad_method"; "spec_num"]%string ++
  map s2l match t with XAdd => ["norm"]%string | XCon => ["low_energy"; "low_ngrid"; "low_log"; "high_energy"; "high_ngrid"; "high_log"]%string | _ => [] end.

(** ** the names *)
Lemma undot_dotless s : dotless (undot s).
Proof.
  unfold dotless, undot. rewrite in_map_iff. intros (c & E & _). destruct (Ascii.eqb_spec c "."%char) as [Ec|Nc]; [discriminate|contradiction].
Qed.
Lemma kw_plus : forallb (fun n => negb (mem (n ++ ["_"%char]) kwlist)) kwlist = true.
Proof. vm_compute. reflexivity. Qed.
Theorem C116_name : forall s, dotless (py_name s) /\ ~ In (py_name s) kwlist /\ (dotless s -> ~ In s kwlist -> py_name s = s) /\
  (forall k, In k kwlist -> dotless k -> py_name k = k ++ s2l "_").
Proof.
  intros s. unfold py_name. cbv zeta. split; [|split; [|split]].
  - destruct (mem (undot s) kwlist); [|apply undot_dotless]. unfold dotless. rewrite in_app_iff. intros [H|[H|[]]]; [now apply undot_dotless in H|discriminate].
  - destruct (mem (undot s) kwlist) eqn:M.
    + apply mem_spec in M. pose proof kw_plus as K. rewrite forallb_forall in K. specialize (K _ M). intros I. apply mem_spec in I. now rewrite I in K.
    + intros I. apply mem_spec in I. congruence.
  - intros D K. assert (U : undot s = s).
    { unfold undot. rewrite <- (map_id s) at 2. apply map_ext_in. intros c H. destruct (Ascii.eqb_spec c "."%char) as [Ec|Nc]; [rewrite Ec in H; contradiction|reflexivity]. }
    rewrite U. destruct (mem s kwlist) eqn:M; [|reflexivity]. now apply mem_spec in M.
  - intros k K D. assert (U : undot k = k).
    { unfold undot. rewrite <- (map_id k) at 2. apply map_ext_in. intros c H. destruct (Ascii.eqb_spec c "."%char) as [Ec|Nc]; [rewrite Ec in H; contradiction|reflexivity]. }
    rewrite U. apply mem_spec in K. rewrite K. reflexivity.
Qed.
Print Assumptions C116_name.

(** ** the parameters: XSPEC's, in XSPEC's order, with XSPEC's values; an additive model has its norm after them *)
Lemma exec_ok k cfg c : exec_class k cfg = Ok c -> c = {| cl_kind := k; cl_config := cfg |} /\ cfg <> [] /\ Forall (fun n => identb n = true) (map g_name cfg) /\ NoDup (s_self :: map g_name cfg ++ s_latex :: xkwargs k).
Proof.
  unfold exec_class. cbv zeta. destruct cfg as [|g cfg]; [discriminate|]. set (l := g :: cfg) in *. assert (L : l <> []) by discriminate. clearbody l.
  destruct (forallb identb (map g_name l)) eqn:F; [|discriminate]. destruct (nodupb _) eqn:N; [|discriminate]. cbn [andb]. intros H. injection H as <-.
  split; [reflexivity|]. split; [exact L|]. split; [now apply Forall_forall, forallb_forall|]. now apply Prop_Classes.nodupb_spec in N.
Qed.
Lemma exec_fail k cfg e : exec_class k cfg = Err e -> e = SyntaxError.
Proof. unfold exec_class. cbv zeta. destruct cfg as [|g cfg]; [now intros [= <-]|]. destruct (_ && _)%bool; [discriminate|now intros [= <-]]. Qed.
Lemma nodup_left {A} (l r : list A) : NoDup (l ++ r) -> NoDup l.
Proof. induction l as [|a l IH]; [constructor|]. cbn [app]. intros N. inversion N as [|? ? Na Nr]; subst. constructor; [|auto]. intros I. apply Na. apply in_or_app. now left. Qed.
Definition own (i : xinfo) : list pconfig := map gen_param_config (xi_params i).
Lemma made i c : make_xspec_model i = Ok c -> exists k, kind_of i k /\ exec_class k (own i ++ match xi_type i with XAdd => [norm_config] | _ => [] end) = Ok c.
Proof.
  unfold make_xspec_model, kind_of, own. cbv zeta. destruct (xi_type i); intros H; try discriminate.
  - exists KAdd. split; [exact I|exact H].
  - exists KMul. rewrite app_nil_r. split; [exact I|exact H].
  - eexists. rewrite app_nil_r. split; [|exact H]. cbn beta iota. fold conv_for_mul. destruct (mem (xi_name i) conv_for_mul) eqn:M.
    + left. split; [now apply mem_spec|reflexivity].
    + right. split; [|reflexivity]. intros J. apply mem_spec in J. congruence.
Qed.
Lemma own_stands i : Forall2 stands_for (xi_params i) (own i).
Proof. unfold own. induction (xi_params i) as [|p l IH]; constructor; [|exact IH]. unfold stands_for, gen_param_config, low, high. cbn. repeat (split; [reflexivity|]). reflexivity. Qed.
Theorem C116_config : forall i c, make_xspec_model i = Ok c -> exists mine rest,
  cl_config c = mine ++ rest /\ Forall2 stands_for (xi_params i) mine /\
  match xi_type i with XAdd => exists g, rest = [g] /\ is_norm_config g | _ => rest = [] end /\
  kind_of i (cl_kind c) /\ NoDup (map g_name (cl_config c)).
Proof.
  intros i c H. destruct (made i c H) as (k & K & E). apply exec_ok in E as (-> & _ & _ & N). eexists _, _. cbn [cl_config cl_kind]. split; [reflexivity|]. split; [apply own_stands|].
  split; [|split; [exact K|inversion N; eapply nodup_left; eassumption]]. destruct (xi_type i); try reflexivity. exists norm_config. split; [reflexivity|]. unfold is_norm_config. cbn. repeat (split; [reflexivity|]). reflexivity.
Qed.
Print Assumptions C116_config.

(** ** XSPEC's routine gets the values of XSPEC's parameters in XSPEC's order, whatever else the mapping holds and in whatever order *)
Lemma args_of names d value : (forall k, In k names -> get d k = Some (value k)) -> xs_args names d = Ok (map value names).
Proof.
  induction names as [|k l IH]; intros H; [reflexivity|]. unfold xs_args in *. cbn [mapE map]. rewrite (H k) by now left. cbn [opt_err bind]. rewrite IH by (intros; apply H; now right). reflexivity.
Qed.
Theorem C116_call : forall i c params (value : str -> R), make_xspec_model i = Ok c ->
  (forall p, In p (xi_params i) -> get params (py_name (xp_name p)) = Some (value (py_name (xp_name p)))) ->
  routine_args c params = Ok (map (fun p => value (py_name (xp_name p))) (xi_params i)).
Proof.
  intros i c params value H V. destruct (made i c H) as (k & K & E). apply exec_ok in E as (-> & _ & _ & N). unfold routine_args, config_names. cbn [cl_kind cl_config].
  assert (O : map g_name (own i) = map (fun p => py_name (xp_name p)) (xi_params i)) by (unfold own; rewrite map_map; apply map_ext; reflexivity).
  assert (X : xs_args (map g_name (own i)) params = Ok (map (fun p => value (py_name (xp_name p))) (xi_params i))).
  { rewrite (args_of _ _ value); [now rewrite O, map_map|]. rewrite O. intros n I. apply in_map_iff in I as (p & <- & I). now apply V. }
  unfold kind_of in K. destruct (xi_type i) eqn:T, k; try contradiction; rewrite ?app_nil_r; try exact X.
  rewrite map_app. cbn [map]. change (g_name norm_config) with norm_key. rewrite <- X. f_equal. rewrite filter_app. cbn [filter]. unfold is_norm at 2.
  destruct (str_eqb_spec norm_key norm_key) as [_|]; [|easy]. cbn [negb]. rewrite app_nil_r.
  assert (A : ~ In norm_key (map g_name (own i))).
  { rewrite map_app in N. cbn [map] in N. change (g_name norm_config) with norm_key in N. inversion N as [|? ? _ N']; subst. rewrite <- app_assoc in N'. cbn [app] in N'. apply NoDup_remove_2 in N'. intros I. apply N', in_or_app. now left. }
  revert A. generalize (map g_name (own i)). induction l as [|n l IH]; intros A; [reflexivity|]. cbn [filter]. unfold is_norm at 1. destruct (str_eqb_spec n norm_key) as [->|]; [exfalso; apply A; now left|]. cbn [negb]. f_equal.
  apply IH. intros I. apply A. now right.
Qed.
Print Assumptions C116_call.

(** ** when a class can be made *)
Definition acceptable (i : xinfo) : Prop :=
  let names := map (fun p => py_name (xp_name p)) (xi_params i) in
  (xi_type i = XAdd \/ xi_params i <> []) /\ NoDup names /\ (forall n, In n names -> identb n = true /\ ~ In n (reserved (xi_type i))).
Lemma reserved_nodup : NoDup (s_self :: norm_key :: s_latex :: kwargs_add) /\ NoDup (s_self :: s_latex :: kwargs_add) /\ NoDup (s_self :: s_latex :: kwargs_con).
Proof. split; [|split]; apply Prop_Classes.nodupb_spec; vm_compute; reflexivity. Qed.
Lemma nodup_mid {A} (s : A) l r : NoDup (s :: l ++ r) <-> NoDup (s :: r) /\ NoDup l /\ (forall x, In x l -> ~ In x (s :: r)).
Proof.
  split.
  - intros N. inversion N as [|? ? Ns Nl]; subst. split; [|split].
    + constructor; [intros I; apply Ns, in_or_app; now right|]. clear -Nl. induction l as [|a l IH]; [exact Nl|]. cbn [app] in Nl. inversion Nl. auto.
    + now apply nodup_left in Nl.
    + intros x I [<-|J]; [apply Ns, in_or_app; now left|]. clear Ns N. induction l as [|a l IH]; [easy|]. cbn [app] in Nl. inversion Nl as [|? ? Na Nr]; subst. destruct I as [->|I]; [apply Na, in_or_app; now right|now apply IH].
  - intros (N1 & N2 & D). constructor.
    + rewrite in_app_iff. intros [I|I]; [apply (D s I); now left|inversion N1; contradiction].
    + inversion N1 as [|? ? _ Nr]; subst. clear N1. induction l as [|a l IH]; [exact Nr|]. cbn [app]. inversion N2 as [|? ? Na N2']; subst. constructor.
      * rewrite in_app_iff. intros [I|I]; [contradiction|]. apply (D a); [now left|now right].
      * apply IH; [exact N2'|]. intros x I. apply D. now right.
Qed.
Theorem C116_accepts : forall i,
  (xi_type i = XOther -> make_xspec_model i = Err ValueError) /\
  (xi_type i <> XOther -> acceptable i -> exists c, make_xspec_model i = Ok c) /\
  (xi_type i <> XOther -> ~ acceptable i -> make_xspec_model i = Err SyntaxError).
Proof.
  assert (Q : forall k cfg, cfg <> [] -> (forall n, In n (map g_name cfg) -> identb n = true) -> NoDup (s_self :: map g_name cfg ++ s_latex :: xkwargs k) -> exists c, exec_class k cfg = Ok c).
  { intros k cfg Nn F N. unfold exec_class. cbv zeta. destruct cfg as [|g cfg]; [easy|]. assert (F' : forallb identb (map g_name (g :: cfg)) = true) by now apply forallb_forall.
    apply Prop_Classes.nodupb_spec in N. rewrite F', N. cbn [andb]. now eexists. }
  intros i. assert (O : map g_name (own i) = map (fun p => py_name (xp_name p)) (xi_params i)) by (unfold own; rewrite map_map; apply map_ext; reflexivity).
  assert (P : own i = [] <-> xi_params i = []) by (unfold own; split; [apply map_eq_nil|intros ->; reflexivity]).
  assert (EQ : xi_type i <> XOther -> (acceptable i <-> exists c, make_xspec_model i = Ok c)).
  { intros T. split.
    - intros (A1 & A2 & A3). unfold make_xspec_model. fold (own i). cbv zeta. destruct reserved_nodup as (R1 & R2 & R3). rewrite <- O in *. destruct (xi_type i); try contradiction.
      + apply Q; [now destruct (own i)| |].
        * intros n I. rewrite map_app, in_app_iff in I. destruct I as [I|[<-|[]]]; [now apply A3|reflexivity].
        * rewrite map_app, <- app_assoc. apply nodup_mid. split; [exact R1|]. split; [exact A2|]. intros x I J. apply (proj2 (A3 x I)). cbn in J |- *. tauto.
      + apply Q; [intros E; apply P in E; destruct A1; [discriminate|contradiction]|intros n I; now apply A3|]. apply nodup_mid. split; [exact R2|]. split; [exact A2|]. intros x I J. apply (proj2 (A3 x I)). cbn in J |- *. tauto.
      + apply Q; [intros E; apply P in E; destruct A1; [discriminate|contradiction]|intros n I; now apply A3|]. apply nodup_mid. split; [exact R3|]. split; [exact A2|]. intros x I J. apply (proj2 (A3 x I)). cbn in J |- *. tauto.
    - intros (c & E). destruct (made i c E) as (k & K & E'). apply exec_ok in E' as (_ & Nn & F & N). unfold acceptable. rewrite <- O. rewrite map_app, <- ?app_assoc in N. apply nodup_mid in N as (_ & N & D). split; [|split; [exact N|]].
      + destruct (xi_type i); [now left|right|right|right]; intros J; apply P in J; rewrite J in Nn; now apply Nn.
      + intros n I. split; [rewrite Forall_forall in F; apply F; rewrite map_app; apply in_or_app; now left|]. intros J. apply (D n I). unfold kind_of in K. unfold reserved in J. destruct (xi_type i), k; try contradiction; cbn in J |- *; tauto. }
  split; [intros T; unfold make_xspec_model; now rewrite T|]. split; [intros T; now apply EQ|]. intros T NA. destruct (make_xspec_model i) as [c|e] eqn:E; [exfalso; apply NA, EQ; [exact T|now exists c]|].
  f_equal. unfold make_xspec_model in E. cbv zeta in E. destruct (xi_type i); try contradiction; now apply exec_fail in E.
Qed.
Print Assumptions C116_accepts.

(** ** the catalogue: every model of the library under its own name, and nothing else; it is all or nothing *)
Theorem C116_catalogue : forall l d, NoDup (map xi_name l) -> generate_xspec_models l = Ok d ->
  (forall i, In i l -> exists c, make_xspec_model i = Ok c /\ get d (xi_name i) = Some c) /\
  (forall n, ~ In n (map xi_name l) -> get d n = None).
Proof.
  intros l d N H. unfold generate_xspec_models in H. destruct (mapE _ l) as [e|] eqn:E; [|discriminate]. cbn [bind] in H. injection H as <-. apply mapE_inv in E.
  assert (F : map fst e = map xi_name l).
  { induction E as [|i x l e Ei _ IH]; [reflexivity|]. cbn [map]. inversion N; subst. rewrite IH by assumption. destruct (make_xspec_model i); [|discriminate]. cbn [bind] in Ei. now injection Ei as <-. }
  split.
  - intros i I. assert (X : exists c, make_xspec_model i = Ok c /\ In (xi_name i, c) e).
    { clear N F. induction E as [|j x l e Ei _ IH]; [easy|]. destruct I as [->|I]; [|destruct (IH I) as (c & ? & ?); exists c; split; [assumption|now right]].
      destruct (make_xspec_model i) as [c|]; [|discriminate]. cbn [bind] in Ei. injection Ei as <-. exists c. split; [reflexivity|now left]. }
    destruct X as (c & Ec & X). exists c. split; [exact Ec|]. apply get_puts; [now rewrite F|exact X].
  - intros n I. rewrite get_puts_absent by now rewrite F. reflexivity.
Qed.
Print Assumptions C116_catalogue.
(** one model that cannot be made and the module has none *)
Theorem C116_all_or_nothing_refuted :
  (forall l i, In i l -> (forall c, make_xspec_model i <> Ok c) -> forall d, generate_xspec_models l <> Ok d) /\
  (exists good bad c, make_xspec_model good = Ok c /\ acceptable good /\ xi_name good <> xi_name bad /\ generate_xspec_models [good; bad] = Err ValueError).
Proof.
  split.
  - intros l i I F d H. unfold generate_xspec_models in H. destruct (mapE _ l) as [e|] eqn:E; [|discriminate]. apply mapE_inv in E. clear H. induction E as [|j x l e Ei _ IH]; [easy|].
    destruct I as [->|I]; [|now apply IH]. destruct (make_xspec_model i) as [c|]; [now apply (F c)|discriminate].
  - pose (good := {| xi_name := s2l "powerlaw"; xi_type := XAdd; xi_params := [{| xp_name := s2l "PhoIndex"; xp_default := 1; xp_min := Some (-3); xp_max := Some 10; xp_fixed := false |}] |}).
    exists good, {| xi_name := s2l "recorn"; xi_type := XOther; xi_params := [] |}. eexists. split; [vm_compute; reflexivity|]. split; [|split; [discriminate|reflexivity]].
    unfold acceptable. cbn [good xi_params xi_type map xp_name]. split; [now left|]. split; [constructor; [intros []|constructor]|]. intros n [<-|[]]. split; [reflexivity|]. intros J. assert (B : mem (py_name (s2l "PhoIndex")) (reserved XAdd) = true) by now apply mem_spec. vm_compute in B. discriminate.
Qed.
Print Assumptions C116_all_or_nothing_refuted.

(** ** a class can be used without arguments exactly when XSPEC's default values lie within the limits *)
Theorem C116_defaults : forall i c, make_xspec_model i = Ok c ->
  (defaults_ok c = true <-> Forall (fun p => low p < high p /\ low p <= xp_default p <= high p) (xi_params i)).
Proof.
  intros i c H. destruct (made i c H) as (k & _ & E). apply exec_ok in E as (-> & _). unfold defaults_ok. cbn [cl_config].
  assert (G : forall g, g_log g = false -> (match make_param g ANone with Ok _ => true | Err _ => false end = true <-> g_min g < g_max g /\ g_min g <= g_default g <= g_max g)).
  { intros g L. rewrite (make_intended _ _ _ _ _ _ _ (I_none g)), L. split.
    - intros A. destruct (Rlt_dec (g_min g) (g_max g)) as [A1|A1]; [destruct (Rle_dec (g_min g) (g_default g)) as [A2|A2]; [destruct (Rle_dec (g_default g) (g_max g)) as [A3|A3]; [now split|]|]|];
        rewrite (uinit_invalid (g_default g)) in A; try discriminate; unfold valid; intros (_ & B1 & B2 & B3); contradiction.
    - intros (A1 & A2). destruct (uinit_settings (g_default g) (g_min g) (g_max g) false (g_fixed g)) as (u & -> & _); [unfold valid; split; [discriminate|now split]|]. reflexivity. }
  assert (M : forallb (fun g => match make_param g ANone with Ok _ => true | Err _ => false end) (own i) = true <-> Forall (fun p => low p < high p /\ low p <= xp_default p <= high p) (xi_params i)).
  { unfold own. induction (xi_params i) as [|p l IH]; [split; [constructor|reflexivity]|]. cbn [map forallb]. rewrite Bool.andb_true_iff, IH, (G (gen_param_config p) eq_refl). split.
    - intros (A & B). constructor; [exact A|exact B].
    - intros A. inversion A; subst. split; assumption. }
  rewrite forallb_app, Bool.andb_true_iff, M. split; [tauto|]. intros A. split; [exact A|]. destruct (xi_type i); try reflexivity. cbn [forallb]. rewrite Bool.andb_true_r. apply G; [reflexivity|]. unfold norm_config. cbn [g_min g_max g_default].
  pose proof tiny. split; [lra|]. split; lra.
Qed.
Print Assumptions C116_defaults.
(** a switch has no limits in XSPEC, but a class made for it refuses its own default when that is below -1 *)
Theorem C116_switch_refuted : exists i c p, make_xspec_model i = Ok c /\ In p (xi_params i) /\ xp_min p = None /\ xp_max p = None /\ xp_default p = -2 /\ defaults_ok c = false.
Proof.
  pose (p := {| xp_name := s2l "switch"; xp_default := -2; xp_min := None; xp_max := None; xp_fixed := true |}).
  pose (i := {| xi_name := s2l "m"; xi_type := XMul; xi_params := [p] |}). assert (E : exists c, make_xspec_model i = Ok c) by (eexists; vm_compute; reflexivity). destruct E as (c & E).
  exists i, c, p. split; [exact E|]. split; [now left|]. do 3 (split; [reflexivity|]). destruct (defaults_ok c) eqn:D; [|reflexivity]. apply (C116_defaults i c E) in D. exfalso. cbn [i xi_params] in D. inversion D as [|? ? (_ & A) _]; subst. cbn in A. lra.
Qed.
Print Assumptions C116_switch_refuted.

(** ** examples: a model whose parameters have dots and a keyword among their names *)
Definition mk n := {| xp_name := s2l n; xp_default := 1; xp_min := Some 0; xp_max := Some 2; xp_fixed := false |}.
Definition smaug : xinfo := {| xi_name := s2l "smaug"; xi_type := XAdd; xi_params := [mk "kT.cc"; mk "lambda"; mk "redshift"]%string |}.
Example smaug_names : exists c, make_xspec_model smaug = Ok c /\ config_names c = map s2l ["kT_cc"; "lambda_"; "redshift"; "norm"]%string.
Proof. eexists. split; vm_compute; reflexivity. Qed.
Example smaug_call : exists c, make_xspec_model smaug = Ok c /\
  routine_args c [(s2l "norm", 9); (s2l "redshift", 3); (s2l "lambda_", 2); (s2l "kT_cc", 1)] = Ok [1; 2; 3].
Proof.
  eexists. split; [vm_compute; reflexivity|]. vm_compute. reflexivity.
Qed.
Example clash : make_xspec_model {| xi_name := s2l "m"; xi_type := XMul; xi_params := [mk "a.b"; mk "a_b"]%string |} = Err SyntaxError.
Proof. vm_compute. reflexivity. Qed.
Example no_parameters : make_xspec_model {| xi_name := s2l "m"; xi_type := XMul; xi_params := [] |} = Err SyntaxError /\ exists c, make_xspec_model {| xi_name := s2l "m"; xi_type := XAdd; xi_params := [] |} = Ok c.
Proof. split; [reflexivity|]. eexists. vm_compute. reflexivity. Qed.
