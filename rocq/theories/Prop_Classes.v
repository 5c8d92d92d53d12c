(** C97: user-defined component classes: what the class statement accepts, what an instance holds, and what cannot be done. *)
From Coq Require Import Ascii String.
From Verif Require Import Base Namespace NamespaceProofs HelperData HelperDataProofs SimulateProofs Classes.
From Coq Require Import List Lia.
Open Scope list_scope.

Lemma nodupb_spec l : nodupb l = true <-> NoDup l.
Proof.
  induction l as [|x l IH]; cbn [nodupb]; [split; [constructor|reflexivity]|]. rewrite Bool.andb_true_iff, Bool.negb_true_iff, IH. split.
  - intros [H1 H2]. constructor; [|exact H2]. intros I. apply str_in_spec in I. congruence.
  - intros H. inversion H as [|? ? N D]; subst. split; [|exact D]. destruct (str_in x l) eqn:E; [apply str_in_spec in E; contradiction|reflexivity].
Qed.

(** ** the class statement *)
Theorem C97_config : forall d bases l, k_config d = Tup l -> (l = [] \/ In NotPC l) -> make_class d bases = Err ValueError.
Proof.
  intros d bases l C H. unfold make_class. rewrite C. destruct l as [|e l]; [reflexivity|]. destruct H as [H|H]; [discriminate|].
  assert (E : forallb is_pc (e :: l) = false); [|rewrite E; reflexivity]. destruct (forallb is_pc (e :: l)) eqn:E; [|reflexivity]. rewrite forallb_forall in E. now specialize (E _ H).
Qed.
Print Assumptions C97_config.
(** every method that the class declares static must be so, wherever it is defined *)
Theorem C97_static : forall d bases names mro m statics, cfg_names (k_config d) = Some names -> lookup k_static (d :: bases) = Some statics -> In m statics ->
  lookup (fun k => get (k_methods k) m) (d :: bases) <> Some true -> make_class d bases <> Ok mro.
Proof.
  intros d bases names mro m statics C S I N H. unfold make_class in H. apply bind_ok in H as (u & _ & H). cbv zeta in H. rewrite C in H. cbn [lookup k_static k_methods] in H. cbn [lookup] in S, N. rewrite S in H.
  destruct (forallb _ statics) eqn:F; [|discriminate]. rewrite forallb_forall in F. specialize (F m I). cbv beta in F. apply N. destruct (get (k_methods d) m) as [[|]|]; try discriminate; [reflexivity|].
  destruct (lookup (fun k : cls => get (k_methods k) m) bases) as [[|]|]; [reflexivity|discriminate|discriminate].
Qed.
Print Assumptions C97_static.

(** ** instances *)
Section Values.
Variable A : Type.
Notation val := (val A).
(** what the caller gives for a name: by position or by keyword *)
Definition given (sig : list str) (pos : list val) (kws : list (str * val)) (n : str) (v : val) : Prop :=
  (exists i, nth_error sig i = Some n /\ nth_error pos i = Some v) \/ In (n, v) kws.
(** arguments that python accepts for a signature *)
Definition callable (sig required : list str) (pos : list val) (kws : list (str * val)) : Prop :=
  (length pos <= length sig)%nat /\ (forall n v, In (n, v) kws -> In n (skipn (length pos) sig)) /\ (forall n, In n required -> exists v, given sig pos kws n v).
(** the value received: what is given, or the default None *)
Definition received (sig : list str) (pos : list val) (kws : list (str * val)) (n : str) (v : val) : Prop :=
  given sig pos kws n v \/ ((forall w, ~ given sig pos kws n w) /\ v = VNone).

Lemma in_combine_nth {X Y} (a : list X) (b : list Y) x y : In (x, y) (combine a b) <-> exists i, nth_error a i = Some x /\ nth_error b i = Some y.
Proof.
  revert b. induction a as [|a0 a IH]; intros b; [split; [intros []|intros (i & E & _); now destruct i]|]. destruct b as [|b0 b]; [split; [intros []|intros (i & _ & E); now destruct i]|]. cbn [combine In]. rewrite IH. split.
  - intros [E|(i & E)]; [injection E as -> ->; now exists 0%nat|now exists (S i)].
  - intros ([|i] & E1 & E2); [left; cbn in *; congruence|right; now exists i].
Qed.
Lemma map_fst_combine_firstn (a : list str) (b : list val) : map fst (combine a b) = firstn (length b) a.
Proof. revert b. induction a as [|x a IH]; intros b; [now rewrite firstn_nil|]. destruct b as [|y b]; [reflexivity|]. cbn. now rewrite IH. Qed.
Lemma get_in_nodup (d : list (str * val)) n v : NoDup (map fst d) -> get d n = Some v <-> In (n, v) d.
Proof.
  induction d as [|[k w] d IH]; intros Nd; [split; [discriminate|intros []]|]. inversion Nd as [|? ? N D]; subst. cbn [get In]. destruct (str_eqb_spec n k) as [->|Ne].
  - split; [intros E; injection E as ->; now left|]. intros [E|I]; [now injection E as ->|]. exfalso. apply N. apply (in_map fst) in I. exact I.
  - rewrite IH by exact D. split; [now right|]. intros [E|I]; [congruence|exact I].
Qed.
Lemma nodup_skipn {X} (l : list X) n x : NoDup l -> In x (skipn n l) -> ~ In x (firstn n l).
Proof. intros N H F. rewrite <- (firstn_skipn n l) in N. revert N H F. generalize (firstn n l), (skipn n l). intros a b. induction a as [|y a IH]; intros N H F; [destruct F|]. inversion N as [|? ? M D]; subst. destruct F as [->|F]; [apply M, in_or_app; now right|auto]. Qed.
Lemma bind_args_spec sig required pos kws : NoDup sig -> NoDup (map fst kws) ->
  (callable sig required pos kws -> exists b, bind_args A sig required pos kws = Ok b) /\
  (forall b, bind_args A sig required pos kws = Ok b -> callable sig required pos kws /\ map fst b = sig /\ forall n v, In (n, v) b -> received sig pos kws n v) /\
  (forall e, bind_args A sig required pos kws = Err e -> e = TypeError).
Proof.
  intros Ns Nk. unfold bind_args. cbv zeta. rewrite map_fst_combine_firstn.
  destruct (Nat.ltb_spec (length sig) (length pos)) as [L|L]; [split; [intros (H & _); lia|split; [discriminate|congruence]]|].
  destruct (forallb (fun kv => str_in (fst kv) sig) kws) eqn:F; cbn [negb].
  2:{ split; [|split; [discriminate|congruence]]. intros (_ & H & _). exfalso. apply Bool.not_true_iff_false in F. apply F, forallb_forall. intros [n v] I. apply str_in_spec. cbn [fst]. specialize (H n v I). apply (in_or_app (firstn (length pos) sig) (skipn (length pos) sig)) in H || idtac. rewrite <- (firstn_skipn (length pos) sig). apply in_or_app. now right. }
  destruct (existsb (fun kv => str_in (fst kv) (firstn (length pos) sig)) kws) eqn:G.
  { split; [|split; [discriminate|congruence]]. intros (_ & H & _). exfalso. apply existsb_exists in G as ([n v] & I & G). apply str_in_spec in G. cbn [fst] in G. specialize (H n v I). now apply (nodup_skipn sig (length pos) n). }
  assert (Hk : forall n v, In (n, v) kws -> In n (skipn (length pos) sig)).
  { intros n v I. rewrite forallb_forall in F. specialize (F _ I). apply str_in_spec in F. cbn [fst] in F. rewrite <- (firstn_skipn (length pos) sig) in F. apply in_app_or in F as [F|F]; [|exact F].
    exfalso. assert (existsb (fun kv => str_in (fst kv) (firstn (length pos) sig)) kws = true); [|congruence]. apply existsb_exists. exists (n, v). split; [exact I|]. now apply str_in_spec. }
  set (all := combine sig pos ++ kws). assert (Na : NoDup (map fst all)).
  { unfold all. rewrite map_app, map_fst_combine_firstn. apply NoDup_app_disj; [|exact Nk|].
    - rewrite <- (firstn_skipn (length pos) sig) in Ns. clear -Ns. revert Ns. generalize (firstn (length pos) sig), (skipn (length pos) sig). intros a b. induction a as [|x a IH]; intros N; [constructor|]. inversion N as [|? ? M D]; subst. constructor; [intros I; apply M, in_or_app; now left|auto].
    - intros x I J. apply in_map_iff in J as ([n v] & <- & J). apply (nodup_skipn sig (length pos) n Ns); [eapply Hk; eassumption|exact I]. }
  assert (Ia : forall n v, In (n, v) all <-> given sig pos kws n v) by (intros n v; unfold all, given; rewrite in_app_iff, in_combine_nth; tauto).
  assert (Ga : forall n v, get all n = Some v <-> given sig pos kws n v) by (intros n v; rewrite <- Ia; now apply get_in_nodup).
  destruct (forallb (fun n => str_in n (map fst all)) required) eqn:Q; cbn [negb].
  - split; [intros _; eexists; reflexivity|]. split; [|congruence]. intros b E. injection E as <-. split; [|split].
    + split; [exact L|]. split; [exact Hk|]. intros n I. rewrite forallb_forall in Q. specialize (Q n I). apply str_in_spec in Q. apply in_map_iff in Q as ([n' v] & E & J). cbn in E. subst n'. exists v. now apply Ia.
    + rewrite map_map. cbn [fst]. apply map_id.
    + intros n v I. apply in_map_iff in I as (n' & E & _). injection E as <- <-. unfold received. destruct (get all n') as [w|] eqn:W; [left; now apply Ga|]. right. split; [|reflexivity]. intros w Hw. apply Ga in Hw. congruence.
  - split; [|split; [discriminate|congruence]]. intros (_ & _ & H). exfalso. apply Bool.not_true_iff_false in Q. apply Q, forallb_forall. intros n I. apply str_in_spec. destruct (H n I) as (v & Hv). apply Ia in Hv. apply (in_map fst) in Hv. exact Hv.
Qed.
Lemma run_skip mro pre here pos kws : forall fuel, Forall (fun c => k_init c = NoInit) pre -> run_init A (length pre + fuel) mro (pre ++ here) pos kws = run_init A fuel mro here pos kws.
Proof. intros fuel F. induction F as [|c pre H F IH]; [reflexivity|]. cbn [length Nat.add app run_init]. rewrite H. exact IH. Qed.
Lemma get_map_self (f : str -> val) l n : In n l -> get (map (fun n => (n, f n)) l) n = Some (f n).
Proof. induction l as [|x l IH]; intros I; [destruct I|]. cbn [map get]. destruct (str_eqb_spec n x) as [->|N]; [reflexivity|]. destruct I as [->|I]; [congruence|auto]. Qed.
Lemma get_app (a b : list (str * val)) n : get (a ++ b) n = match get a n with Some v => Some v | None => get b n end.
Proof. induction a as [|[k v] a IH]; [reflexivity|]. cbn [app get]. destruct (str_eqb n k); [reflexivity|exact IH]. Qed.
Lemma get_map_none (f : str -> val) l n : ~ In n l -> get (map (fun n => (n, f n)) l) n = None.
Proof. induction l as [|x l IH]; intros I; [reflexivity|]. cbn [map get]. destruct (str_eqb_spec n x) as [->|N]; [exfalso; apply I; now left|]. apply IH. intros J. apply I. now right. Qed.

(** the object made by a prototype of the library for the arguments that the generated [__init__] passes on *)
Definition made (mro : list cls) (names : list str) : Prop := forall n, In n names -> existsb (fun c => str_in n (k_props c)) mro = true.
Lemma component_init_ok mro names (f : str -> val) latex extras : lookup (fun c => cfg_names (k_config c)) mro = Some names ->
  component_init A mro (VParams (map (fun n => (n, f n)) names)) latex extras =
  Ok {| o_params := map (fun n => (n, if existsb (fun c => str_in n (k_props c)) mro then Made (f n) else Raw (f n))) names; o_latex := latex; o_extras := extras |}.
Proof.
  intros L. unfold component_init. rewrite L.
  assert (E : forall sub, incl sub names -> mapE (fun n => match get (map (fun n => (n, f n)) names) n with Some v => Ok (n, if existsb (fun c => str_in n (k_props c)) mro then Made v else Raw v) | None => Err KeyError end) sub =
    Ok (map (fun n => (n, if existsb (fun c => str_in n (k_props c)) mro then Made (f n) else Raw (f n))) sub)).
  { induction sub as [|n sub IH]; intros I; [reflexivity|]. cbn [mapE map]. rewrite get_map_self by (apply I; now left). cbn [bind]. rewrite IH by (intros x Hx; apply I; now right). reflexivity. }
  rewrite E by (intros x Hx; exact Hx). reflexivity.
Qed.

(** [bases] are prototypes of the library: the first of them with an [__init__] takes [req] and [opt] *)
Definition prototypes (limit : nat) (bases : list cls) (req opt : list str) : Prop :=
  exists pre c rest, bases = pre ++ c :: rest /\ (length pre + 2 <= limit)%nat /\ Forall (fun c => k_init c = NoInit) pre /\ k_init c = Lib req opt /\ NoDup (s_params :: s_latex :: req ++ opt).
Lemma gen_runs limit mro bases c names args kwargs req opt pos kws : mro = c :: bases -> k_init c = Gen args names kwargs -> lookup (fun c => cfg_names (k_config c)) mro = Some names ->
  prototypes limit bases req opt -> NoDup (args ++ names ++ s_latex :: kwargs) -> ~ In s_params (args ++ kwargs) -> incl (args ++ kwargs) (req ++ opt) -> incl req (args ++ kwargs) -> NoDup (map fst kws) ->
  let sig := args ++ names ++ s_latex :: kwargs in
  ((exists o, instantiate A limit mro pos kws = Ok o) <-> callable sig args pos kws) /\
  (~ callable sig args pos kws -> instantiate A limit mro pos kws = Err TypeError) /\
  forall o, instantiate A limit mro pos kws = Ok o -> map fst (o_params A o) = names /\
    (forall n s, In (n, s) (o_params A o) -> exists v, received sig pos kws n v /\ s = if existsb (fun c => str_in n (k_props c)) mro then Made v else Raw v) /\
    received sig pos kws s_latex (o_latex A o) /\
    (forall n, In n (args ++ kwargs) -> exists v, get (o_extras A o) n = Some v /\ received sig pos kws n v).
Proof.
  intros -> Hi Hl (pre & p & rest & -> & Lp & Fp & Hp & Np) Ns Npa Inc Rq Nk sig. unfold instantiate. destruct limit as [|fuel]; [lia|]. cbn [run_init]. rewrite Hi. fold sig.
  destruct (bind_args_spec sig args pos kws Ns Nk) as (B1 & B2 & B3). destruct (bind_args A sig args pos kws) as [b|e] eqn:Eb.
  2:{ cbn [bind]. specialize (B3 e eq_refl). subst e. split; [split; [intros (o & H); discriminate|intros H; destruct (B1 H) as (b & X); discriminate]|]. split; [reflexivity|discriminate]. }
  cbn [bind tl]. destruct (B2 b eq_refl) as (Ca & Fb & Rb). set (v := fun n => match get b n with Some v => v | None => VNone end).
  assert (Rv : forall n, In n sig -> received sig pos kws n (v n)).
  { intros n I. rewrite <- Fb in I. unfold v. assert (Nb : NoDup (map fst b)) by now rewrite Fb. apply in_map_iff in I as ([n' w] & E & I). cbn in E. subst n'. rewrite (proj2 (get_in_nodup b n w Nb) I). now apply Rb. }
  set (kw := map (fun n => (n, v n)) kwargs ++ map (fun n => (n, v n)) args ++ [(s_params, VParams (map (fun n => (n, v n)) names)); (s_latex, v s_latex)]).
  assert (E9 : fuel = (length pre + S (fuel - 1 - length pre))%nat) by lia. rewrite E9, run_skip by exact Fp. cbn [run_init]. rewrite Hp.
  assert (Kw : map fst kw = kwargs ++ args ++ [s_params; s_latex]) by (unfold kw; rewrite !map_app, !map_map; cbn [fst map]; rewrite !map_id; reflexivity).
  assert (Nka : NoDup (args ++ kwargs) /\ ~ In s_latex (args ++ kwargs)).
  { unfold sig in Ns. assert (P : forall (x y z : list str) w, NoDup (x ++ y ++ w :: z) -> NoDup (x ++ z) /\ ~ In w (x ++ z)).
    { intros x y z w N. assert (N' : NoDup (x ++ w :: z)). { clear -N. induction y as [|a y IH]; [exact N|]. apply IH. cbn [app] in N. now apply NoDup_remove_1 in N. } now apply NoDup_remove in N'. }
    exact (P _ _ _ _ Ns). }
  assert (Nkw : NoDup (map fst kw)).
  { rewrite Kw. destruct Nka as [N1 N2]. apply NoDup_app_disj.
    - clear -N1. induction args as [|a args IH]; [exact N1|]. inversion N1; subst. auto.
    - apply NoDup_app_disj; [|constructor; [intros [H|[]]; discriminate|constructor; [easy|constructor]]|].
      + clear -N1. rewrite <- (firstn_all args). revert N1. generalize kwargs. intros z. induction args as [|a args IH]; intros N; [constructor|]. cbn in *. inversion N as [|? ? M D]; subst. rewrite firstn_all in *. constructor; [intros I; apply M, in_or_app; now left|apply IH; exact D].
      + intros x Hx [<-|[<-|[]]]; [apply Npa|apply N2]; apply in_or_app; now left.
    - intros x Hx Hy. apply in_app_or in Hy as [Hy|[<-|[<-|[]]]].
      + clear -N1 Hx Hy. induction args as [|a args IH]; [destruct Hy|]. inversion N1 as [|? ? M D]; subst. destruct Hy as [->|Hy]; [apply M, in_or_app; now right|auto].
      + apply Npa, in_or_app. now right.
      + apply N2, in_or_app. now right. }
  destruct (bind_args_spec (s_params :: s_latex :: req ++ opt) (s_params :: s_latex :: req) [] kw Np Nkw) as (D1 & D2 & _).
  assert (Gk : forall n w, given (s_params :: s_latex :: req ++ opt) [] kw n w <-> In (n, w) kw). { intros n w. unfold given. split; [intros [(i & _ & H)|H]; [now destruct i|exact H]|now right]. }
  assert (Ikw : forall n w, In (n, w) kw <-> (In n (args ++ kwargs) /\ w = v n) \/ (n = s_params /\ w = VParams (map (fun n => (n, v n)) names)) \/ (n = s_latex /\ w = v s_latex)).
  { intros n w. unfold kw. rewrite !in_app_iff, !in_map_iff. cbn [In]. split.
    - intros [(x & E & I)|[(x & E & I)|[E|[E|[]]]]]; injection E as <- <-; auto.
    - intros [([I|I] & ->)|[(-> & ->)|(-> & ->)]]; [right; left; now exists n|left; now exists n|right; right; now left|right; right; right; now left]. }
  assert (Cc : callable (s_params :: s_latex :: req ++ opt) (s_params :: s_latex :: req) [] kw).
  { split; [cbn; lia|]. split.
    - intros n w I. cbn [length skipn]. apply Ikw in I as [(I & _)|[(-> & _)|(-> & _)]]; [right; right; now apply Inc|now left|right; now left].
    - intros n I. destruct I as [<-|[<-|I]]; [eexists; apply Gk, Ikw; right; left; split; reflexivity|eexists; apply Gk, Ikw; right; right; split; reflexivity|]. exists (v n). apply Gk, Ikw. left. split; [now apply Rq|reflexivity]. }
  destruct (D1 Cc) as (b' & E'). match goal with |- context [bind_args A ?a ?r [] ?z] => change (bind_args A a r [] z) with (bind_args A (s_params :: s_latex :: req ++ opt) (s_params :: s_latex :: req) [] kw) end. rewrite E'. cbn [bind]. destruct (D2 b' E') as (_ & Fb' & Rb').
  destruct b' as [|[n1 w1] [|[n2 w2] ex]]; try discriminate. cbn [map fst] in Fb'. injection Fb' as -> -> Fex.
  assert (W1 : w1 = VParams (map (fun n => (n, v n)) names)).
  { destruct (Rb' s_params w1 (or_introl eq_refl)) as [H|[H _]]; [|exfalso; apply (H (VParams (map (fun n => (n, v n)) names))), Gk, Ikw; right; left; now split]. apply Gk, Ikw in H as [(H & _)|[(_ & ->)|(H & _)]]; [contradiction|reflexivity|discriminate]. }
  assert (W2 : w2 = v s_latex).
  { destruct (Rb' s_latex w2 (or_intror (or_introl eq_refl))) as [H|[H _]]; [|exfalso; apply (H (v s_latex)), Gk, Ikw; right; right; now split]. apply Gk, Ikw in H as [(H & _)|[(H & _)|(_ & ->)]]; [exfalso; now apply (proj2 Nka)|discriminate|reflexivity]. }
  subst w1 w2. rewrite (component_init_ok _ _ v _ _ Hl). split; [split; [intros _; exact Ca|intros _; eexists; reflexivity]|]. split; [contradiction|]. intros o E. injection E as <-. cbn [o_params o_latex o_extras].
  split; [rewrite map_map; cbn [fst]; apply map_id|]. split; [|split].
  - intros n s I. apply in_map_iff in I as (n' & E & I). injection E as <- <-. exists (v n'). split; [|reflexivity]. apply Rv. unfold sig. apply in_or_app. right. apply in_or_app. now left.
  - apply Rv. unfold sig. apply in_or_app. right. apply in_or_app. right. now left.
  - intros n I. exists (v n). split; [|apply Rv; unfold sig; apply in_app_or in I as [I|I]; apply in_or_app; [now left|right; apply in_or_app; right; now right]].
    assert (Nex : NoDup (map fst ex)) by (rewrite Fex; inversion Np as [|? ? _ N']; subst; now inversion N').
    assert (In n (map fst ex)) as J by (rewrite Fex; now apply Inc). apply in_map_iff in J as ([n' w] & Ew & J). cbn in Ew. subst n'.
    apply get_in_nodup; [exact Nex|]. assert (w = v n) as <-; [|exact J].
    destruct (Rb' n w (or_intror (or_intror J))) as [H|[H _]]; [|exfalso; apply (H (v n)), Gk, Ikw; left; now split]. apply Gk, Ikw in H as [(_ & ->)|[(-> & _)|(-> & ->)]]; [reflexivity|contradiction|reflexivity].
Qed.
End Values.

(** ** a class with its own configuration, below prototypes of the library: every instance has the parameters of the configuration in
    that order, each made from what was given for it (by position after the required arguments, or by keyword), else from its default; the
    other arguments reach the prototype.  Calls that python does not accept for this signature are refused. *)
Definition new_class (d : cls) (bases mro : list cls) (l : list entry) : Prop := k_config d = Tup l /\ k_init d = NoInit /\ make_class d bases = Ok mro.
Definition names_of (l : list entry) : list str := flat_map (fun e => match e with PC n => [n] | NotPC => [] end) l.
Lemma new_class_inv d bases names : k_init d = NoInit -> cfg_names (k_config d) = Some names -> forall mro, make_class d bases = Ok mro ->
  let args := find_args (d :: bases) in let kwargs := find_kwargs (d :: bases) in
  NoDup (s_self :: args ++ names ++ s_latex :: kwargs) /\
  mro = {| k_config := k_config d; k_init := Gen args names kwargs; k_args := k_args d; k_kwargs := k_kwargs d; k_static := k_static d; k_methods := k_methods d;
           k_props := match k_config d with Tup l => names_of l | _ => [] end |} :: bases.
Proof.
  intros Hi Hc mro H args kwargs. unfold make_class in H. apply bind_ok in H as (u & _ & H). cbv zeta in H. rewrite Hc in H. destruct (negb (forallb _ _)) in H; [discriminate|]. rewrite Hi in H.
  destruct (negb _) eqn:N in H; [discriminate|]. injection H as <-. apply Bool.negb_false_iff, nodupb_spec in N. split; [exact N|reflexivity].
Qed.
Theorem C97_instance : forall A limit d bases mro l req opt, new_class d bases mro l -> prototypes limit bases req opt ->
  let names := names_of l in let args := find_args (d :: bases) in let kwargs := find_kwargs (d :: bases) in let sig := args ++ names ++ s_latex :: kwargs in
  incl (args ++ kwargs) (req ++ opt) -> incl req (args ++ kwargs) ->
  forall (pos : list (val A)) kws, NoDup (map fst kws) ->
  ((exists o, instantiate A limit mro pos kws = Ok o) <-> callable A sig args pos kws) /\
  (~ callable A sig args pos kws -> instantiate A limit mro pos kws = Err TypeError) /\
  forall o, instantiate A limit mro pos kws = Ok o -> map fst (o_params A o) = names /\
    (forall n s, In (n, s) (o_params A o) -> exists v, received A sig pos kws n v /\ s = Made v) /\
    received A sig pos kws s_latex (o_latex A o) /\
    (forall n, In n (args ++ kwargs) -> exists v, get (o_extras A o) n = Some v /\ received A sig pos kws n v).
Proof.
  intros A limit d bases mro l req opt (Hc & Hi & Hm) Pr names args kwargs sig Inc Rq pos kws Nk.
  destruct (new_class_inv d bases names Hi) with (mro := mro) as [N E]; [now rewrite Hc|exact Hm|]. rewrite Hc in E. fold args kwargs in N, E.
  assert (Npa : ~ In s_params (args ++ kwargs)). { intros I. apply Inc in I. destruct Pr as (pre & c & rest & _ & _ & _ & _ & Np). inversion Np as [|? ? M _]; subst. apply M. now right. }
  inversion N as [|? ? _ Ns]; subst.
  match type of Hm with _ = Ok ?m => set (mro := m) in * end.
  destruct (gen_runs A limit mro bases (hd d mro) names args kwargs req opt pos kws) as (G1 & G2 & G3); try assumption; try reflexivity.
  split; [exact G1|]. split; [exact G2|]. intros o Ho. destruct (G3 o Ho) as (P1 & P2 & P3 & P4). split; [exact P1|]. split; [|split; assumption]. intros n s I. destruct (P2 n s I) as (v & Rv & ->). exists v. split; [exact Rv|].
  assert (In n names) as J by (rewrite <- P1; apply (in_map fst) in I; exact I). unfold mro. cbn [existsb k_props]. assert (str_in n (names_of l) = true) as -> by now apply str_in_spec. reflexivity.
Qed.
Print Assumptions C97_instance.

(** ** a configuration that is not a tuple passes, and then the parameters are not parameters but whatever was given, even nothing *)
Theorem C97_list_config_refuted : forall A limit d bases mro names req opt, k_config d = Other names -> k_init d = NoInit -> make_class d bases = Ok mro -> prototypes limit bases req opt ->
  Forall (fun c => k_props c = []) bases ->
  let args := find_args (d :: bases) in let kwargs := find_kwargs (d :: bases) in incl (args ++ kwargs) (req ++ opt) -> incl req (args ++ kwargs) ->
  forall (pos : list (val A)) kws o, NoDup (map fst kws) -> instantiate A limit mro pos kws = Ok o -> Forall (fun e => exists v, snd e = Raw v) (o_params A o).
Proof.
  intros A limit d bases mro names req opt Hc Hi Hm Pr Fb args kwargs Inc Rq pos kws o Nk Ho.
  destruct (new_class_inv d bases names Hi) with (mro := mro) as [N E]; [now rewrite Hc|exact Hm|]. rewrite Hc in E. fold args kwargs in N, E.
  assert (Npa : ~ In s_params (args ++ kwargs)). { intros I. apply Inc in I. destruct Pr as (pre & c & rest & _ & _ & _ & _ & Np). inversion Np as [|? ? M _]; subst. apply M. now right. }
  inversion N as [|? ? _ Ns]; subst. match type of Hm with _ = Ok ?m => set (mro := m) in * end.
  destruct (gen_runs A limit mro bases (hd d mro) names args kwargs req opt pos kws) as (_ & _ & G3); try assumption; try reflexivity.
  destruct (G3 o Ho) as (_ & P2 & _). apply Forall_forall. intros [n s] I. destruct (P2 n s I) as (v & _ & ->). exists v. unfold mro. cbn [existsb k_props str_in snd].
  assert (existsb (fun c => str_in n (k_props c)) bases = false) as ->; [|reflexivity]. clear -Fb. induction Fb as [|c b H F IH]; [reflexivity|]. cbn [existsb]. rewrite H. exact IH.
Qed.
Print Assumptions C97_list_config_refuted.

(** ** a class derived from a concrete component class cannot be instantiated, whether it has a configuration of its own or not *)
Theorem C97_subclass_refuted : forall A limit d c rest mro args names kwargs, k_init c = Gen args names kwargs -> ~ In s_params (args ++ names ++ kwargs) ->
  k_init d = NoInit -> make_class d (c :: rest) = Ok mro -> (3 <= limit)%nat ->
  forall (pos : list (val A)) kws, NoDup (map fst kws) -> NoDup (args ++ names ++ s_latex :: kwargs) -> instantiate A limit mro pos kws = Err TypeError.
Proof.
  intros A limit d c rest mro args names kwargs Hc Np Hd Hm Hl pos kws Nk Ns.
  assert (Refuse : forall fuel more w w', run_init A (S fuel) mro (c :: rest) [] (more ++ [(s_params, w); (s_latex, w')]) = Err TypeError).
  { intros fuel more w w'. cbn [run_init]. rewrite Hc. unfold bind_args at 1. cbn [length]. destruct (Nat.ltb_spec (length (args ++ names ++ s_latex :: kwargs)) 0); [lia|].
    assert (F : forallb (fun kv : str * val A => str_in (fst kv) (args ++ names ++ s_latex :: kwargs)) (more ++ [(s_params, w); (s_latex, w')]) = false); [|rewrite F; reflexivity].
    destruct (forallb _ _) eqn:F; [|reflexivity]. rewrite forallb_forall in F. specialize (F (s_params, w)). exfalso. apply Np. assert (I : In (s_params, w) (more ++ [(s_params, w); (s_latex, w')])) by (apply in_or_app; right; now left).
    apply F, str_in_spec in I. cbn [fst] in I. apply in_app_or in I as [I|I]; [apply in_or_app; now left|]. apply in_app_or in I as [I|[I|I]]; [apply in_or_app; right; apply in_or_app; now left|discriminate|apply in_or_app; right; apply in_or_app; now right]. }
  assert (Step : forall fuel h here a n k, k_init h = Gen a n k -> tl mro = c :: rest -> NoDup (a ++ n ++ s_latex :: k) -> run_init A (S (S fuel)) mro (h :: here) pos kws = Err TypeError).
  { intros fuel h here a n k Hh Ht Nh. remember (S fuel) as g eqn:Eg. cbn [run_init]. rewrite Hh, Ht.
    match goal with |- bind ?b _ = _ => destruct b as [b'|e] eqn:Eb end; cbn [bind]; [rewrite app_assoc, Eg; apply Refuse|].
    destruct (bind_args_spec A _ a pos kws Nh Nk) as (_ & _ & B3). now rewrite (B3 e Eb). }
  unfold instantiate. destruct limit as [|[|[|fuel]]]; try lia. destruct (cfg_names (k_config d)) as [names'|] eqn:Ec.
  - destruct (new_class_inv d (c :: rest) names' Hd Ec mro Hm) as [N E]. inversion N as [|? ? _ N']; subst x l. rewrite E at 2. eapply Step; [reflexivity|now rewrite E|exact N'].
  - unfold make_class in Hm. apply bind_ok in Hm as (u & _ & Hm). cbv zeta in Hm. rewrite Ec in Hm.
    match type of Hm with Ok ?m = _ => assert (E : mro = m) by congruence end. rewrite E at 2. remember (S (S fuel)) as g eqn:Eg. cbn [run_init k_init]. rewrite Hd, Eg. eapply Step; [exact Hc|now rewrite E|exact Ns].
Qed.
Print Assumptions C97_subclass_refuted.

(** non-vacuity: a power law with a required argument, an optional one and two parameters; and a class derived from it *)
Definition ex_proto : cls := {| k_config := NoConfig; k_init := Lib [s2l "emin"] [s2l "method"]; k_args := None; k_kwargs := Some [s2l "method"]; k_static := Some [s2l "continuum"]; k_methods := [(s2l "continuum", true)]; k_props := [] |}.
Definition ex_class : cls := {| k_config := Tup [PC (s2l "alpha"); PC (s2l "K")]; k_init := NoInit; k_args := Some [s2l "emin"]; k_kwargs := None; k_static := None; k_methods := [(s2l "continuum", true)]; k_props := [] |}.
Definition ex_sub : cls := {| k_config := NoConfig; k_init := NoInit; k_args := None; k_kwargs := None; k_static := None; k_methods := [(s2l "continuum", true)]; k_props := [] |}.
Example C97_case : exists mro, new_class ex_class [ex_proto] mro [PC (s2l "alpha"); PC (s2l "K")] /\ prototypes 1000 [ex_proto] [s2l "emin"] [s2l "method"] /\
  (exists o, instantiate nat 1000 mro [VUser 7; VNone; VUser 3] [(s2l "method", VUser 5)] = Ok o /\ o_params nat o = [(s2l "alpha", Made VNone); (s2l "K", Made (VUser 3))]) /\
  instantiate nat 1000 mro [] [] = Err TypeError /\
  exists mro', make_class ex_sub mro = Ok mro' /\ instantiate nat 1000 mro' [VUser 7] [] = Err TypeError.
Proof.
  eexists. split; [split; [reflexivity|split; reflexivity]|]. split.
  { exists [], ex_proto, []. split; [reflexivity|]. split; [cbn; lia|]. split; [constructor|]. split; [reflexivity|]. apply nodupb_spec. reflexivity. }
  split; [eexists; split; reflexivity|]. split; [reflexivity|]. eexists. split; reflexivity.
Qed.

(** ** guarded attributes: after any history of assignments and deletions the object has the attributes it had; a name that does not exist is
    refused, so that a misspelt parameter is never silently ignored; the components of a model stay *)
Section Guards.
Variable V : Type.
Lemma has_put (i : inst V) n v m : has V i n = true -> has V {| i_attrs := put (i_attrs V i) n v; i_class := i_class V i |} m = has V i m.
Proof.
  intros H. unfold has in *. cbn [i_attrs i_class]. rewrite get_put. destruct (str_eqb_spec m n) as [->|N]; [|reflexivity]. cbn [orb]. symmetry. exact H.
Qed.
Lemma step_ok names guarded i a i' : access_step V names guarded i a = Ok i' ->
  exists n v, ~ In n guarded /\ has V i n = true /\ i' = {| i_attrs := put (i_attrs V i) n v; i_class := i_class V i |} /\
  (a = SetAttr V n v \/ (a = SetItem V n v /\ exists l, names = Some l /\ In n l)).
Proof.
  assert (S : forall n v, (if (negb (has V i n) || str_in n guarded)%bool then Err AttributeError else Ok {| i_attrs := put (i_attrs V i) n v; i_class := i_class V i |}) = Ok i' ->
    ~ In n guarded /\ has V i n = true /\ i' = {| i_attrs := put (i_attrs V i) n v; i_class := i_class V i |}).
  { intros n v H. destruct (has V i n) eqn:Hn; cbn [negb orb] in H; [|discriminate]. destruct (str_in n guarded) eqn:G; [discriminate|]. injection H as <-. split; [intros I; apply str_in_spec in I; congruence|]. split; reflexivity. }
  unfold access_step. cbv zeta. destruct a as [n v|n|n v]; intros H.
  - exists n, v. destruct (S n v H) as (A & B & C). auto.
  - discriminate.
  - destruct names as [l|]; [|discriminate]. destruct (str_in n l) eqn:I; [|discriminate]. exists n, v. destruct (S n v H) as (A & B & C). repeat split; auto. right. split; [reflexivity|]. exists l. split; [reflexivity|]. now apply str_in_spec.
Qed.
(** the value an attribute has after a history: the last accepted assignment *)
Definition assigned (a : access V) (n : str) (v : V) : Prop := a = SetAttr V n v \/ a = SetItem V n v.
Theorem C97_guard : forall names guarded i h, let i' := access_all V names guarded i h in
  (forall n, has V i' n = has V i n) /\ (forall n, In n guarded -> get (i_attrs V i') n = get (i_attrs V i) n) /\
  (forall n v, get (i_attrs V i') n = Some v -> get (i_attrs V i) n = Some v \/ exists a, In a h /\ assigned a n v) /\
  (forall n v, has V i' n = false -> access_step V names guarded i' (SetAttr V n v) = Err AttributeError) /\
  (forall n, access_step V names guarded i' (DelAttr V n) = Err AttributeError) /\
  (forall n v l, names = Some l -> ~ In n l -> access_step V names guarded i' (SetItem V n v) = Err KeyError) /\
  (forall n v, has V i' n = true -> ~ In n guarded -> exists i'', access_step V names guarded i' (SetAttr V n v) = Ok i'' /\ get (i_attrs V i'') n = Some v /\ forall m, m <> n -> get (i_attrs V i'') m = get (i_attrs V i') m).
Proof.
  intros names guarded i h i'. assert (Inv : (forall n, has V i' n = has V i n) /\ (forall n, In n guarded -> get (i_attrs V i') n = get (i_attrs V i) n) /\ (forall n v, get (i_attrs V i') n = Some v -> get (i_attrs V i) n = Some v \/ exists a, In a h /\ assigned a n v)).
  { subst i'. revert i. induction h as [|a h IH]; intros i; [repeat split; auto|]. unfold access_all. cbn [fold_left]. destruct (access_step V names guarded i a) as [j|e] eqn:E.
    - apply step_ok in E as (n & v & Ng & Hn & -> & Ha). destruct (IH {| i_attrs := put (i_attrs V i) n v; i_class := i_class V i |}) as (A & B & C). split; [|split].
      + intros m. etransitivity; [apply A|]. now apply has_put.
      + intros m Hm. etransitivity; [now apply B|]. cbn [i_attrs]. rewrite get_put. destruct (str_eqb_spec m n) as [->|]; [contradiction|reflexivity].
      + intros m w Hm. destruct (C m w Hm) as [D|(a' & I & D)]; [|right; exists a'; split; [now right|exact D]]. cbn [i_attrs] in D. rewrite get_put in D. destruct (str_eqb_spec m n) as [->|]; [|now left]. injection D as ->. right. exists a. split; [now left|]. destruct Ha as [Ha|[Ha _]]; [now left|now right].
    - destruct (IH i) as (A & B & C). split; [exact A|]. split; [exact B|]. intros m w Hm. destruct (C m w Hm) as [D|(a' & I & D)]; [now left|right; exists a'; split; [now right|exact D]]. }
  destruct Inv as (I1 & I2 & I3). split; [exact I1|]. split; [exact I2|]. split; [exact I3|]. split; [intros n v Hn; cbn [access_step]; rewrite Hn; reflexivity|]. split; [reflexivity|]. split.
  - intros n v l -> Hn. cbn [access_step]. destruct (str_in n l) eqn:E; [apply str_in_spec in E; contradiction|reflexivity].
  - intros n v Hn Ng. cbn [access_step]. rewrite Hn. cbn [negb orb]. destruct (str_in n guarded) eqn:E; [apply str_in_spec in E; contradiction|]. eexists. split; [reflexivity|]. cbn [i_attrs]. split; [rewrite get_put; destruct (str_eqb_spec n n); congruence|].
    intros m Hm. rewrite get_put. destruct (str_eqb_spec m n); congruence.
Qed.
End Guards.
Print Assumptions C97_guard.
