From Verif Require Import RBase Expr ExprFacts Composite.

Section Go.
Context (bn : nat -> string) (cn : nat -> option string).
Notation lab := (label bn cn).
Lemma label_fun id f args : cn id = None ->
  lab (PFun id f args) = TFun f :: TL :: commas (map (fun a => paren_if (is_comp a) (lab a)) args) ++ [TR].
Proof.
  intros H. cbn [label]. rewrite H. do 2 f_equal. f_equal.
  induction args as [|a [|b r] IH]; [reflexivity|reflexivity|].
  cbn [map commas] in *. now rewrite IH.
Qed.
End Go.

Section P.
Context {V : Type} (A : alg V) (L : laws A) (bn : nat -> string) (cn : nat -> option string) (env : string -> V).
Context (m : nat -> option V) (dflt : nat -> V).
Notation val := (pvalue A m dflt).
Notation lab := (label bn cn).

(** the mapping names composites consistently *)
Fixpoint consistent (p : param) : Prop :=
  match p with
  | PBase id => env (bn id) = val (PBase id)
  | PBin id o l r => (forall s, cn id = Some s -> env s = val (PBin id o l r)) /\ consistent l /\ consistent r
  | PFun id f args => (forall s, cn id = Some s -> env s = val (PFun id f args)) /\
      (fix all (l : list param) : Prop := match l with [] => True | a :: r => consistent a /\ all r end) args
  end.

Lemma cons_args id f args : consistent (PFun id f args) -> Forall consistent args.
Proof. intros [_ H]. induction args; constructor; destruct H; auto. Qed.

Definition levels (p : param) : Prop :=
  denE A env (lab p) (val p) /\
  (is_comp p = false -> denA A env (lab p) (val p)) /\
  (sym_tight p = true -> denT A env (lab p) (val p)).

Lemma levels_atom p : levels p -> denA A env (paren_if (is_comp p) (lab p)) (val p).
Proof.
  intros (H & HA & _). destruct (is_comp p); [now apply denA_paren|]. cbn. auto.
Qed.
Lemma levels_term p : levels p -> denT A env (paren_if (is_comp p && negb (sym_tight p)) (lab p)) (val p).
Proof.
  intros (H & HA & HT). destruct (is_comp p) eqn:E; cbn [andb].
  - destruct (sym_tight p) eqn:E2; cbn [negb paren_if]; [auto|]. now apply denT_F, denF_A, denA_paren.
  - cbn. now apply denT_F, denF_A, HA.
Qed.

Lemma label_levels p : consistent p -> levels p.
Proof.
  induction p as [id|id o l r IHl IHr|id f args IH] using param_ind'.
  - intros H. cbn in H.
    assert (D : denA A env (lab (PBase id)) (val (PBase id))) by (cbn; rewrite <- H; apply denA_name).
    repeat split; [now apply denE_T, denT_F, denF_A|now apply denE_T, denT_F, denF_A|now intros|discriminate|discriminate].
  - intros (Hc & Hl & Hr). specialize (IHl Hl). specialize (IHr Hr).
    destruct (cn id) as [s|] eqn:E.
    { assert (D : denA A env (lab (PBin id o l r)) (val (PBin id o l r))).
      { cbn [label]. rewrite E, <- (Hc s eq_refl). apply denA_name. }
      split; [now apply denE_T, denT_F, denF_A|]. split; [discriminate|]. intros _. now apply denT_F, denF_A. }
    assert (G : denE A env (lab (PBin id o l r)) (val (PBin id o l r)) /\
       (sym_tight (PBin id o l r) = true -> denT A env (lab (PBin id o l r)) (val (PBin id o l r)))).
    { cbn [label pvalue]. rewrite E. destruct o; cbn [lhs_paren rhs_paren optok sym_tight].
      - split; [|discriminate]. apply denE_add; [exact L|apply IHl|apply IHr].
      - split; [|discriminate]. apply denE_sub; [exact L|apply IHl|now apply levels_term].
      - assert (D := denT_mul A L env _ _ _ _ (levels_term _ IHl) (levels_term _ IHr)).
        split; [now apply denE_T|auto].
      - assert (D := denT_div A L env _ _ _ _ (levels_term _ IHl)
           (denF_A A env _ _ (denA_paren A env _ _ (proj1 IHr)))).
        split; [now apply denE_T|auto].
      - assert (D := denT_F A env _ _ (denF_pow A env _ _ _ _ (levels_atom _ IHl) (levels_atom _ IHr))).
        split; [now apply denE_T|auto]. }
    destruct G as [G1 G2]. split; [exact G1|]. split; [discriminate|exact G2].
  - intros H. pose proof (cons_args _ _ _ H) as HF. destruct H as [Hc _].
    assert (D : denA A env (lab (PFun id f args)) (val (PFun id f args))).
    { destruct (cn id) as [s|] eqn:E.
      - cbn [label]. rewrite E, <- (Hc s eq_refl). apply denA_name.
      - rewrite (label_fun bn cn id f args E). cbn [pvalue]. apply denA_call.
        clear -IH HF L. induction args as [|a args IHa]; cbn; constructor.
        + inversion IH; inversion HF; subst. apply denE_T, denT_F, denF_A, levels_atom. auto.
        + inversion IH; inversion HF; subst. apply IHa; auto. }
    split; [now apply denE_T, denT_F, denF_A|]. split; discriminate.
Qed.

Lemma label_reads p : consistent p -> exists e, reads (lab p) e /\ eval A env e = val p.
Proof. intros H. apply den_reads. now apply label_levels. Qed.
End P.

(** at construction: no composite is named *)
Lemma consistent_none {V} (A : alg V) bn env m dflt p :
  (forall id, In id (leaves p) -> env (bn id) = pvalue A m dflt (PBase id)) ->
  consistent A bn (fun _ => None) env m dflt p.
Proof.
  induction p as [id|id o l r IHl IHr|id f args IH] using param_ind'; intros H.
  - apply H. now left.
  - split; [discriminate|]. split; [apply IHl|apply IHr]; intros; apply H; cbn; apply in_or_app; auto.
  - split; [discriminate|]. cbn in H. revert H. induction IH as [|a args Ha _ IHa]; intros H; [exact I|].
    cbn in H. split; [apply Ha|apply IHa]; intros; apply H; apply in_or_app; auto.
Qed.

(** the real-number algebra; [pw] and [fn] are arbitrary ([jnp.power], user functions) *)
Definition Ralg (pw : R -> R -> R) (fn : string -> list R -> R) : alg R :=
  {| op2 := fun o => match o with Add => Rplus | Sub => Rminus | Mul => Rmult | Div => Rdiv | Pow => pw end;
     app := fn |}.
Lemma Ralg_laws pw fn : laws (Ralg pw fn).
Proof. split; cbn; intros; unfold Rminus, Rdiv; try ring. Qed.

(** [nodes] lists every base parameter exactly once *)
Lemma dedup_in_spec l : forall seen, NoDup seen ->
  NoDup (dedup_in seen l) /\ (forall x, In x (dedup_in seen l) <-> In x seen \/ In x l).
Proof.
  induction l as [|a l IH]; cbn; intros seen H; [tauto|].
  destruct (existsb (Nat.eqb a) seen) eqn:E.
  - destruct (IH seen H) as [A B]. split; [exact A|]. intros x. rewrite B.
    apply existsb_exists in E. destruct E as (y & Hy & Ey). apply Nat.eqb_eq in Ey. subst y.
    intuition congruence.
  - assert (HN : NoDup (seen ++ [a])).
    { apply NoDup_rev in H. rewrite <- (rev_involutive (seen ++ [a])). apply NoDup_rev. rewrite rev_app_distr. cbn.
      constructor; [|exact H]. intros Hin. apply in_rev in Hin.
      assert (existsb (Nat.eqb a) seen = true) by (apply existsb_exists; exists a; split; [auto|apply Nat.eqb_refl]).
      congruence. }
    destruct (IH _ HN) as [A B]. split; [exact A|]. intros x. rewrite B, in_app_iff. cbn. tauto.
Qed.
Lemma nodes_spec p : NoDup (nodes p) /\ (forall x, In x (nodes p) <-> In x (leaves p)).
Proof.
  destruct (dedup_in_spec (leaves p) [] (NoDup_nil _)) as [A B]. split; [exact A|].
  intros x. unfold nodes. rewrite B. cbn. tauto.
Qed.

(** the value depends on the mapping only through the base parameters *)
Lemma pvalue_ext {V} (A : alg V) m1 m2 d p : (forall x, In x (leaves p) -> m1 x = m2 x) ->
  pvalue A m1 d p = pvalue A m2 d p.
Proof.
  induction p as [id|id o l r IHl IHr|id f args IH] using param_ind'; intros H; cbn.
  - rewrite H; [reflexivity|now left].
  - rewrite IHl, IHr; auto; intros; apply H; cbn; apply in_or_app; auto.
  - f_equal. cbn in H. revert H. induction IH as [|a args Ha _ IHa]; intros H; [reflexivity|]. cbn in *.
    rewrite Ha, IHa; auto; intros; apply H, in_or_app; auto.
Qed.
