From Coq Require Import FunctionalExtensionality.
From Verif Require Import RBase Expr ExprFacts ModelAlg.
From Coq Require Import List.

(** ** vectors *)
Lemma map2_assoc f (Hf : forall x y z, f x (f y z) = f (f x y) z) a : forall b c,
  map2 f a (map2 f b c) = map2 f (map2 f a b) c.
Proof. induction a as [|x a IH]; intros [|y b] [|z c]; cbn; try reflexivity. now rewrite Hf, IH. Qed.
Lemma map2_length f a : forall b, length (map2 f a b) = Nat.min (length a) (length b).
Proof. induction a as [|x a IH]; intros [|y b]; cbn; auto. Qed.
Lemma distr_r a : forall b c, map2 Rmult (map2 Rplus a b) c = map2 Rplus (map2 Rmult a c) (map2 Rmult b c).
Proof. induction a as [|x a IH]; intros [|y b] [|z c]; cbn; try reflexivity. rewrite IH. f_equal. ring. Qed.
Lemma distr_l c : forall a b, map2 Rmult c (map2 Rplus a b) = map2 Rplus (map2 Rmult c a) (map2 Rmult c b).
Proof. induction c as [|x c IH]; intros [|y a] [|z b]; cbn; try reflexivity. rewrite IH. f_equal. ring. Qed.

Lemma sadd_assoc f g h : sadd f (sadd g h) = sadd (sadd f g) h.
Proof. extensionality e. unfold sadd. apply map2_assoc. intros; ring. Qed.
Lemma smul_assoc f g h : smul f (smul g h) = smul (smul f g) h.
Proof. extensionality e. unfold smul. apply map2_assoc. intros; ring. Qed.

(** ** C31 *)
Lemma mtype_eqb_spec a b : reflect (a = b) (mtype_eqb a b).
Proof. destruct a, b; cbn; constructor; congruence. Qed.
Lemma mk_bin_plus l r : (exists m, mk_bin MPlus l r = Ok m) <-> type_of l = Madd /\ type_of r = Madd.
Proof.
  unfold mk_bin. destruct (mtype_eqb_spec (type_of l) Madd); cbn; [|split; [intros [m H]; discriminate|tauto]].
  destruct (mtype_eqb_spec (type_of r) Madd); cbn; [|split; [intros [m H]; discriminate|tauto]].
  split; [tauto|eauto].
Qed.
Lemma mk_bin_times l r : (exists m, mk_bin MTimes l r = Ok m) <->
  type_of l <> Mconv /\ type_of r <> Mconv /\ (type_of l = Mmul \/ type_of r = Mmul).
Proof.
  unfold mk_bin. destruct (type_of l), (type_of r); cbn; split; intros H;
    try (destruct H as [m H]; discriminate); try (repeat split; try discriminate; tauto);
    try (eexists; reflexivity); destruct H as (A & B & [C|C]); congruence.
Qed.
Lemma mk_app_iff cid supp m : (exists x, mk_app (MOp cid supp) m = Ok x) <-> In (type_of m) supp.
Proof.
  unfold mk_app. destruct (existsb (mtype_eqb (type_of m)) supp) eqn:E.
  - apply existsb_exists in E. destruct E as (t & H & Ht). destruct (mtype_eqb_spec (type_of m) t); [|discriminate].
    split; [intros _; now subst|eauto].
  - split; [intros [x H]; discriminate|]. intros H. exfalso.
    assert (existsb (mtype_eqb (type_of m)) supp = true); [|congruence].
    apply existsb_exists. exists (type_of m). split; [exact H|]. now destruct (mtype_eqb_spec (type_of m) (type_of m)).
Qed.

(** physical dimension: exponent of flux; independent of [type_of] *)
Fixpoint dim (m : model) : option nat :=
  match m with
  | MUni _ Madd => Some 1%nat
  | MUni _ Mmul => Some 0%nat
  | MUni _ Mconv => None
  | MOp _ _ => None
  | MBin MPlus l r => match dim l, dim r with Some a, Some b => if Nat.eqb a b then Some a else None | _, _ => None end
  | MBin MTimes l r => match dim l, dim r with Some a, Some b => Some (a + b)%nat | _, _ => None end
  | MApp _ m => dim m
  end.
Lemma built_dim m : built m ->
  dim m = match type_of m with Madd => Some 1%nat | Mmul => Some 0%nat | Mconv => None end /\
  (type_of m = Mconv -> exists c s, m = MOp c s /\ ~ In Mconv s).
Proof.
  induction 1 as [cid t Ht|cid supp Hs|o l r m Hl IHl Hr IHr E|op x m Hop IHop Hx IHx E].
  - destruct t; cbn; split; try reflexivity; congruence.
  - cbn. split; [reflexivity|]. eauto.
  - destruct IHl as [IHl _], IHr as [IHr _]. destruct o; unfold mk_bin in E.
    + destruct (mtype_eqb_spec (type_of l) Madd) as [El|]; cbn in E; [|discriminate].
      destruct (mtype_eqb_spec (type_of r) Madd) as [Er|]; cbn in E; [|discriminate].
      inversion E; subst. cbn. rewrite IHl, IHr, El, Er. cbn. split; [reflexivity|discriminate].
    + destruct (type_of l) eqn:El, (type_of r) eqn:Er; cbn in E; try discriminate; inversion E; subst;
      cbn [dim type_of]; rewrite IHl, IHr; rewrite ?El, ?Er; cbn; (split; [reflexivity|discriminate]).
  - destruct op as [| cid supp | |]; try discriminate. cbn in E.
    destruct (existsb (mtype_eqb (type_of x)) supp) eqn:Ex; [|discriminate]. inversion E; subst. cbn.
    destruct IHx as [IHx _]. split; [exact IHx|]. intros Hc. exfalso.
    destruct IHop as [_ IHop]. destruct (IHop eq_refl) as (c & s & Ec & Hn). inversion Ec; subst.
    apply existsb_exists in Ex. destruct Ex as (t & Hin & Ht). destruct (mtype_eqb_spec (type_of x) t); [|discriminate].
    subst t. rewrite Hc in Hin. auto.
Qed.

(** ** C30 *)
Definition Salg (cf : string -> spectrum -> spectrum) : alg spectrum :=
  {| op2 := fun o => match o with Expr.Add => sadd | Mul => smul | Sub => fun f g => f | Div => fun f g => f | Pow => fun f g => f end;
     Expr.app := fun s l => match l with [v] => cf s v | _ => fun _ => [] end |}.
Lemma Salg_laws cf : laws (Salg cf).
Proof. split; cbn; intros; auto using sadd_assoc, smul_assoc. Qed.

Section L.
Context (nm : nat -> string) (comp : nat -> spectrum) (conv : nat -> spectrum -> spectrum).
Context (env : string -> spectrum) (cf : string -> spectrum -> spectrum).
Fixpoint named (m : model) : Prop :=
  match m with
  | MUni c _ | MOp c _ => env (nm c) = comp c
  | MBin _ l r => named l /\ named r
  | MApp c m => cf (nm c) = conv c /\ named m
  end.
Lemma mlabel_den m : named m ->
  denE (Salg cf) env (mlabel nm m) (meval comp conv m) /\
  (is_plus m = false -> denT (Salg cf) env (mlabel nm m) (meval comp conv m)).
Proof.
  induction m as [c t|c s|o l IHl r IHr|c m IH]; intros H.
  1,2: cbn in H; assert (D : denA (Salg cf) env [TName (nm c)] (comp c)) by (rewrite <- H; apply denA_name);
       cbn; split; [now apply denE_T, denT_F, denF_A|intros _; now apply denT_F, denF_A].
  - destruct H as [Hl Hr]. destruct (IHl Hl) as [El Tl], (IHr Hr) as [Er Tr]. destruct o; cbn [mlabel meval].
    + split; [|discriminate]. exact (denE_add (Salg cf) (Salg_laws cf) env _ _ _ _ El Er).
    + assert (D : denT (Salg cf) env (mparen (is_plus l) (mlabel nm l) ++ TMul :: mparen (is_plus r) (mlabel nm r))
                       (smul (meval comp conv l) (meval comp conv r))).
      { apply (denT_mul (Salg cf) (Salg_laws cf) env).
        - destruct (is_plus l); [now apply denT_F, denF_A, denA_paren|cbn; auto].
        - destruct (is_plus r); [now apply denT_F, denF_A, denA_paren|cbn; auto]. }
      split; [now apply denE_T|auto].
  - destruct H as [Hc Hm]. destruct (IH Hm) as [E _]. cbn [mlabel meval].
    assert (D : denA (Salg cf) env (TFun (nm c) :: TL :: mlabel nm m ++ [TR]) (conv c (meval comp conv m))).
    { rewrite <- Hc. apply (denA_call (Salg cf) env (nm c) [mlabel nm m] [meval comp conv m]). constructor; [exact E|constructor]. }
    split; [now apply denE_T, denT_F, denF_A|intros _; now apply denT_F, denF_A].
Qed.
Lemma mlabel_reads m : named m -> exists e, reads (mlabel nm m) e /\ eval (Salg cf) env e = meval comp conv m.
Proof. intros H. apply den_reads. now apply mlabel_den. Qed.
End L.

(** ** C32 *)
Definition total (v : spectrum) (l : list spectrum) : spectrum := fold_left sadd l v.
Lemma total_app v a b : total v (a ++ b) = total (total v a) b.
Proof. unfold total. now rewrite fold_left_app. Qed.
Lemma total_sadd l : forall u v, total (sadd u v) l = sadd u (total v l).
Proof.
  induction l as [|x l IH]; intros u v; [reflexivity|].
  change (total (sadd (sadd u v) x) l = sadd u (total (sadd v x) l)). now rewrite <- sadd_assoc, IH.
Qed.
Lemma total_map (h : spectrum -> spectrum) (Hh : forall f g, h (sadd f g) = sadd (h f) (h g)) l : forall v,
  total (h v) (map h l) = h (total v l).
Proof.
  induction l as [|x l IH]; intros v; [reflexivity|].
  change (total (sadd (h v) (h x)) (map h l) = h (total (sadd v x) l)). now rewrite <- Hh, IH.
Qed.

Section Sum.
Context (comp : nat -> spectrum) (conv : nat -> spectrum -> spectrum).
Notation ev := (meval comp conv).
(** the convolutions applied to additive models preserve sums *)
Fixpoint convs_linear (m : model) : Prop :=
  match m with
  | MUni _ _ | MOp _ _ => True
  | MBin _ l r => convs_linear l /\ convs_linear r
  | MApp c m => (forall f g, conv c (sadd f g) = sadd (conv c f) (conv c g)) /\ convs_linear m
  end.
(** operands are legal at every node *)
Fixpoint legal (m : model) : Prop :=
  match m with
  | MUni _ t => t <> Mconv
  | MOp _ _ => True
  | MBin MPlus l r => type_of l = Madd /\ type_of r = Madd /\ legal l /\ legal r
  | MBin MTimes l r => type_of l <> Mconv /\ type_of r <> Mconv /\
      (type_of l = Mmul \/ type_of r = Mmul) /\ legal l /\ legal r
  | MApp _ m => type_of m <> Mconv /\ legal m
  end.
Lemma built_legal m : built m -> legal m.
Proof.
  induction 1 as [cid t Ht|cid supp Hs|o l r m Hl IHl Hr IHr E|op x m Hop IHop Hx IHx E]; [exact Ht|exact I| |].
  - destruct o.
    + destruct (proj1 (mk_bin_plus l r) (ex_intro _ m E)). unfold mk_bin in E.
      destruct (negb _); [discriminate|]. destruct (negb _); [discriminate|]. inversion E. cbn. auto.
    + destruct (proj1 (mk_bin_times l r) (ex_intro _ m E)) as (A & B & C). unfold mk_bin in E.
      destruct (_ && _)%bool; [discriminate|]. destruct (_ || _)%bool; [discriminate|]. inversion E. cbn. auto.
  - destruct op as [| cid supp | |]; try discriminate.
    pose proof (proj1 (mk_app_iff cid supp x) (ex_intro _ m E)) as Hin.
    destruct (built_dim _ Hop) as [_ Q]. destruct (Q eq_refl) as (c & s & Ec & Hn). inversion Ec; subst.
    cbn in E. destruct (existsb _ _); [|discriminate]. inversion E. cbn. split; [|exact IHx]. congruence.
Qed.

Lemma comps_total m : legal m -> type_of m = Madd -> convs_linear m ->
  exists c cs, additive_comps m = c :: cs /\ total (ev c) (map ev cs) = ev m.
Proof.
  induction m as [c t|c s|o l IHl r IHr|c m IH]; intros W T L.
  - cbn in *. subst t. exists (MUni c Madd), []. split; reflexivity.
  - discriminate.
  - destruct L as [Ll Lr]. destruct o.
    + destruct W as (El & Er & Wl & Wr). cbn [additive_comps type_of mtype_eqb negb].
      destruct (IHl Wl El Ll) as (a & la & Ea & Sa). destruct (IHr Wr Er Lr) as (b & lb & Eb & Sb).
      rewrite Ea, Eb. exists a, (la ++ b :: lb). split; [reflexivity|].
      rewrite map_app, total_app, Sa. cbn [map]. unfold total. cbn [fold_left].
      change (total (sadd (ev l) (ev b)) (map ev lb) = ev (MBin MPlus l r)).
      rewrite total_sadd, Sb. reflexivity.
    + destruct W as (Nl & Nr & Hm & Wl & Wr). cbn [additive_comps]. rewrite T. cbn [mtype_eqb negb].
      destruct (mtype_eqb_spec (type_of l) Madd) as [El|El].
      * destruct (IHl Wl El Ll) as (a & la & Ea & Sa). rewrite Ea.
        destruct la as [|a2 la]; cbn [length Nat.leb map].
        -- exists (MBin MTimes l r), []. split; reflexivity.
        -- eexists. eexists. split; [reflexivity|].
           change (map ev (MBin MTimes a2 r :: map (fun c => MBin MTimes c r) la)) with
             (map ev (map (fun c => MBin MTimes c r) (a2 :: la))).
           rewrite map_map. cbn [meval].
           replace (map (fun c => smul (ev c) (ev r)) (a2 :: la)) with (map (fun f => smul f (ev r)) (map ev (a2 :: la))) by (now rewrite map_map).
           rewrite (total_map (fun f => smul f (ev r))); [now rewrite Sa|].
           intros f g. extensionality e. unfold smul, sadd. apply distr_r.
      * assert (Er : type_of r = Madd).
        { cbn in T. destruct (type_of l); try congruence; destruct (type_of r); congruence. }
        destruct (IHr Wr Er Lr) as (a & la & Ea & Sa). rewrite Ea.
        destruct la as [|a2 la]; cbn [length Nat.leb map].
        -- exists (MBin MTimes l r), []. split; reflexivity.
        -- eexists. eexists. split; [reflexivity|].
           change (map ev (MBin MTimes l a2 :: map (fun c => MBin MTimes l c) la)) with
             (map ev (map (fun c => MBin MTimes l c) (a2 :: la))).
           rewrite map_map. cbn [meval].
           replace (map (fun c => smul (ev l) (ev c)) (a2 :: la)) with (map (fun f => smul (ev l) f) (map ev (a2 :: la))) by (now rewrite map_map).
           rewrite (total_map (fun f => smul (ev l) f)); [now rewrite Sa|].
           intros f g. extensionality e. unfold smul, sadd. apply distr_l.
  - destruct W as [N W]. destruct L as [Lc L]. cbn in T. cbn [additive_comps type_of]. rewrite T. cbn [mtype_eqb negb].
    destruct (IH W T L) as (a & la & Ea & Sa). rewrite Ea.
    destruct la as [|a2 la]; cbn [length Nat.leb map].
    + exists (MApp c m), []. split; reflexivity.
    + eexists. eexists. split; [reflexivity|].
      change (map ev (MApp c a2 :: map (MApp c) la)) with (map ev (map (MApp c) (a2 :: la))).
      rewrite map_map. cbn [meval].
      replace (map (fun x => conv c (ev x)) (a2 :: la)) with (map (conv c) (map ev (a2 :: la))) by (now rewrite map_map).
      rewrite (total_map (conv c)); [now rewrite Sa|exact Lc].
Qed.

(** the dict built from distinct labels keeps every component *)
Lemma lput_new {V} (d : list (ltree * V)) k v : ~ In k (map fst d) -> lput d k v = d ++ [(k, v)].
Proof.
  induction d as [|[k' v'] d IH]; cbn; intros H; [reflexivity|].
  destruct (ltree_eq_dec k k'); [exfalso; apply H; now left|]. f_equal. apply IH. tauto.
Qed.
Lemma dict_nodup (nm : nat -> string) cs : NoDup (map (llabel nm) cs) ->
  fold_left (fun d c => lput d (llabel nm c) (ev c)) cs [] = map (fun c => (llabel nm c, ev c)) cs.
Proof.
  intros H. assert (G : forall d, NoDup (map fst d ++ map (llabel nm) cs) ->
    fold_left (fun d c => lput d (llabel nm c) (ev c)) cs d = d ++ map (fun c => (llabel nm c, ev c)) cs).
  { clear H. induction cs as [|c cs IH]; cbn; intros d H; [now rewrite app_nil_r|].
    rewrite lput_new.
    - rewrite IH; [now rewrite <- app_assoc|]. rewrite map_app, <- app_assoc. exact H.
    - apply NoDup_remove_2 in H. intros Hin. apply H, in_or_app. now left. }
  exact (G [] H).
Qed.
End Sum.

(** which of elisa's convolutions preserve sums *)
Lemma map_map2_plus h (Hh : forall x y, h (x + y) = h x + h y) a : forall b,
  map h (map2 Rplus a b) = map2 Rplus (map h a) (map h b).
Proof. induction a as [|x a IH]; intros [|y b]; cbn; auto. now rewrite Hh, IH. Qed.
Lemma zashift_linear z f g : zashift z (sadd f g) = sadd (zashift z f) (zashift z g).
Proof. extensionality e. unfold zashift, sadd. apply map_map2_plus. intros; unfold Rdiv; ring. Qed.
Lemma zmshift_linear z f g : zmshift z (sadd f g) = sadd (zmshift z f) (zmshift z g).
Proof. reflexivity. Qed.
Lemma vshift_linear v f g : vshift v (sadd f g) = sadd (vshift v f) (vshift v g).
Proof. reflexivity. Qed.

(** ** C36 flux *)
Lemma rsum_map2_plus a : forall b, length a = length b -> rsum (map2 Rplus a b) = rsum a + rsum b.
Proof.
  induction a as [|x a IH]; intros [|y b] H; try discriminate; [cbn; lra|].
  cbn [map2]. change (x + y + rsum (map2 Rplus a b) = x + rsum a + (y + rsum b)). rewrite IH by (cbn in H; lia). lra.
Qed.
Lemma map2_ext_nonzero a : forall d, length a = length d -> Forall (fun x => x <> 0) d ->
  map2 Rmult (map2 Rdiv a d) d = a.
Proof.
  induction a as [|x a IH]; intros [|y d] L H; cbn in *; try lia; [reflexivity|].
  inversion H; subst. rewrite IH by (auto; lia). f_equal. field. auto.
Qed.

(** strictly increasing energy grid *)
Fixpoint increasing (g : list R) : Prop :=
  match g with a :: ((b :: _) as r) => a < b /\ increasing r | _ => True end.
Lemma diff_pos g : increasing g -> Forall (fun d => 0 < d) (diff g).
Proof.
  induction g as [|a [|b g] IH]; cbn [increasing diff]; intros H; try constructor; [destruct H; lra|apply IH; tauto].
Qed.
Lemma diff_length g : length (diff g) = (length g - 1)%nat.
Proof. induction g as [|a [|b g] IH]; cbn in *; auto. rewrite IH. lia. Qed.
Lemma emid_length g : length (emid g) = (length g - 1)%nat.
Proof. induction g as [|a [|b g] IH]; cbn in *; auto. rewrite IH. lia. Qed.

(** the photon flux is the sum of the bin values: the division by the bin width in [ne]
    and the multiplication in [flux] cancel *)
Lemma flux_photon f g : increasing g -> length (f g) = (length g - 1)%nat -> flux false f g = rsum (f g).
Proof.
  intros Hg L. unfold flux, ne. f_equal. apply map2_ext_nonzero; [now rewrite diff_length|].
  eapply Forall_impl; [|apply diff_pos; exact Hg]. intros; cbn in *; lra.
Qed.
Lemma map2_mult_shift w : forall a d, length a = length d -> length w = length a -> Forall (fun x => x <> 0) d ->
  map2 Rmult (map2 Rmult w (map2 Rdiv a d)) d = map2 Rmult w a.
Proof.
  induction w as [|z w IH]; intros [|x a] [|y d] L1 L2 H; cbn in *; try lia; [reflexivity|].
  inversion H; subst. rewrite IH by (auto; lia). f_equal. field. auto.
Qed.
Definition weights (g : list R) : list R := map (Rmult keV_to_erg) (emid g).
Lemma flux_energy f g : increasing g -> length (f g) = (length g - 1)%nat ->
  flux true f g = rsum (map2 Rmult (weights g) (f g)).
Proof.
  intros Hg L. unfold flux, ene, ne. f_equal. apply map2_mult_shift.
  - now rewrite diff_length.
  - unfold weights. now rewrite map_length, emid_length.
  - eapply Forall_impl; [|apply diff_pos; exact Hg]. intros; cbn in *; lra.
Qed.

(** splitting a grid at a node: [g1 ++ [b]] and [b :: g2] *)
Lemma diff_split g1 b g2 : diff (g1 ++ b :: g2) = diff (g1 ++ [b]) ++ diff (b :: g2).
Proof.
  induction g1 as [|a g1 IH]; [reflexivity|]. destruct g1 as [|a' g1]; [reflexivity|].
  cbn [List.app] in *. change (diff (a :: a' :: g1 ++ b :: g2)) with ((a' - a) :: diff (a' :: g1 ++ b :: g2)).
  change (diff (a :: a' :: g1 ++ [b])) with ((a' - a) :: diff (a' :: g1 ++ [b])). rewrite IH. reflexivity.
Qed.
Lemma emid_split g1 b g2 : emid (g1 ++ b :: g2) = emid (g1 ++ [b]) ++ emid (b :: g2).
Proof.
  induction g1 as [|a g1 IH]; [reflexivity|]. destruct g1 as [|a' g1]; [reflexivity|].
  cbn [List.app] in *. change (emid (a :: a' :: g1 ++ b :: g2)) with (sqrt (a * a') :: emid (a' :: g1 ++ b :: g2)).
  change (emid (a :: a' :: g1 ++ [b])) with (sqrt (a * a') :: emid (a' :: g1 ++ [b])). rewrite IH. reflexivity.
Qed.
Lemma map2_app f a1 : forall b1 a2 b2, length a1 = length b1 -> map2 f (a1 ++ a2) (b1 ++ b2) = map2 f a1 b1 ++ map2 f a2 b2.
Proof. induction a1 as [|x a1 IH]; intros [|y b1] a2 b2 H; cbn in *; try lia; auto. now rewrite IH by lia. Qed.

(** a spectrum is additive over bins when it integrates over each bin separately *)
Definition binwise (f : spectrum) : Prop :=
  (forall g, length (f g) = (length g - 1)%nat) /\
  (forall g1 b g2, f (g1 ++ b :: g2) = f (g1 ++ [b]) ++ f (b :: g2)).

Lemma flux_split energy f g1 b g2 : binwise f ->
  flux energy f (g1 ++ b :: g2) = flux energy f (g1 ++ [b]) + flux energy f (b :: g2).
Proof.
  intros [HL HS]. unfold flux.
  assert (E : forall h : spectrum, (h = ene f \/ h = ne f) ->
     rsum (map2 Rmult (h (g1 ++ b :: g2)) (diff (g1 ++ b :: g2))) =
     rsum (map2 Rmult (h (g1 ++ [b])) (diff (g1 ++ [b]))) + rsum (map2 Rmult (h (b :: g2)) (diff (b :: g2)))).
  { intros h Hh.
    assert (N : ne f (g1 ++ b :: g2) = ne f (g1 ++ [b]) ++ ne f (b :: g2)).
    { unfold ne. rewrite HS, diff_split. apply map2_app. rewrite HL, diff_length. reflexivity. }
    assert (LN : forall g, length (ne f g) = (length g - 1)%nat).
    { intros g. unfold ne. rewrite map2_length, HL, diff_length. lia. }
    assert (X : h (g1 ++ b :: g2) = h (g1 ++ [b]) ++ h (b :: g2)).
    { destruct Hh as [->| ->]; [|exact N]. unfold ene. rewrite emid_split, map_app, N. apply map2_app.
      rewrite map_length, emid_length, LN. reflexivity. }
    assert (LX : length (h (g1 ++ [b])) = length (diff (g1 ++ [b]))).
    { rewrite diff_length. destruct Hh as [->| ->]; [|apply LN]. unfold ene.
      rewrite map2_length, map_length, emid_length, LN. lia. }
    rewrite X, diff_split, map2_app by exact LX. apply rsum_app. }
  destruct energy; apply E; auto.
Qed.

Lemma vdot_plus w : forall a b, length a = length b -> vdot w (map2 Rplus a b) = vdot w a + vdot w b.
Proof.
  unfold vdot. induction w as [|x w IH]; intros [|y a] [|z b] L; try discriminate; try (cbn; lra).
  cbn [map2]. change (x * (y + z) + rsum (map2 Rmult w (map2 Rplus a b)) = x * y + rsum (map2 Rmult w a) + (x * z + rsum (map2 Rmult w b))).
  rewrite IH by (cbn in L; lia). lra.
Qed.
Lemma vdot_scale w k : forall a, vdot w (vscale k a) = k * vdot w a.
Proof.
  unfold vdot, vscale. induction w as [|x w IH]; intros [|y a]; try (cbn; lra).
  cbn [map map2]. change (x * (k * y) + rsum (map2 Rmult w (map (Rmult k) a)) = k * (x * y + rsum (map2 Rmult w a))).
  rewrite IH. lra.
Qed.
Lemma flux_sum energy f g e : increasing e -> length (f e) = (length e - 1)%nat -> length (g e) = (length e - 1)%nat ->
  flux energy (sadd f g) e = flux energy f e + flux energy g e.
Proof.
  intros He Lf Lg.
  assert (LS : length (sadd f g e) = (length e - 1)%nat) by (unfold sadd; rewrite map2_length, Lf, Lg; lia).
  destruct energy.
  - rewrite !flux_energy by assumption. apply (vdot_plus (weights e)). congruence.
  - rewrite !flux_photon by assumption. apply rsum_map2_plus. congruence.
Qed.
Lemma flux_scale energy k f e : increasing e -> length (f e) = (length e - 1)%nat ->
  flux energy (fun e => vscale k (f e)) e = k * flux energy f e.
Proof.
  intros He Lf. assert (LS : length (vscale k (f e)) = (length e - 1)%nat) by (unfold vscale; now rewrite map_length).
  destruct energy.
  - rewrite !flux_energy by assumption. apply (vdot_scale (weights e)).
  - rewrite !flux_photon by assumption. apply rsum_scal.
Qed.
Lemma weights_nonneg g : Forall (fun x => 0 <= x) (weights g).
Proof.
  unfold weights. induction g as [|a [|b g] IH]; cbn [emid map]; constructor; [|exact IH].
  apply Rmult_le_pos; [unfold keV_to_erg; apply Rmult_le_pos; [lra|left; apply Rinv_0_lt_compat; lra]|apply sqrt_pos].
Qed.
Lemma map2_nonneg a : forall b, Forall (fun x => 0 <= x) a -> Forall (fun x => 0 <= x) b -> Forall (fun x => 0 <= x) (map2 Rmult a b).
Proof.
  induction a as [|x a IH]; intros [|y b] Ha Hb; cbn; constructor; inversion Ha; inversion Hb; subst; auto.
  now apply Rmult_le_pos.
Qed.
Lemma flux_nonneg energy f e : increasing e -> length (f e) = (length e - 1)%nat -> Forall (fun x => 0 <= x) (f e) ->
  0 <= flux energy f e.
Proof.
  intros He Lf Hf. destruct energy.
  - rewrite flux_energy by assumption. apply rsum_nonneg, map2_nonneg; [apply weights_nonneg|exact Hf].
  - rewrite flux_photon by assumption. now apply rsum_nonneg.
Qed.

(** ** C37 *)
Lemma phflux_flux F fg f : increasing fg -> length (f fg) = (length fg - 1)%nat -> rsum (f fg) <> 0 ->
  flux false (phflux F fg f) fg = F.
Proof.
  intros Hg L N. rewrite flux_photon; [|exact Hg|unfold phflux, vscale; now rewrite map_length].
  unfold phflux, vscale. rewrite rsum_scal. field. exact N.
Qed.
Lemma enflux_flux F fg f : increasing fg -> length (f fg) = (length fg - 1)%nat -> flux true f fg <> 0 ->
  flux true (enflux F fg f) fg = F.
Proof.
  intros Hg L N. rewrite (flux_energy f) in N by assumption.
  rewrite flux_energy; [|exact Hg|unfold enflux, vscale; now rewrite map_length].
  change (rsum (map2 Rmult (weights fg) (f fg))) with (vdot (weights fg) (f fg)) in N.
  unfold enflux. change (vdot (weights fg) (vscale (F / vdot (weights fg) (f fg)) (f fg)) = F).
  rewrite vdot_scale. field. exact N.
Qed.
Lemma vscale_vscale a b v : vscale a (vscale b v) = vscale (a * b) v.
Proof. unfold vscale. rewrite map_map. apply map_ext. intros; ring. Qed.
Lemma phflux_rescale F fg f k : k <> 0 -> rsum (f fg) <> 0 ->
  phflux F fg (fun e => vscale k (f e)) = phflux F fg f.
Proof.
  intros Hk N. extensionality e. unfold phflux. rewrite vscale_vscale. unfold vscale at 1 3.
  replace (rsum (vscale k (f fg))) with (k * rsum (f fg)) by (unfold vscale; now rewrite rsum_scal).
  f_equal. f_equal. field. auto.
Qed.
Lemma enflux_rescale F fg f k : k <> 0 -> vdot (weights fg) (f fg) <> 0 ->
  enflux F fg (fun e => vscale k (f e)) = enflux F fg f.
Proof.
  intros Hk N. extensionality e. unfold enflux. cbv zeta.
  change (map (Rmult keV_to_erg) (emid fg)) with (weights fg).
  change (rsum (map2 Rmult (weights fg) (vscale k (f fg)))) with (vdot (weights fg) (vscale k (f fg))).
  change (rsum (map2 Rmult (weights fg) (f fg))) with (vdot (weights fg) (f fg)).
  rewrite vdot_scale, vscale_vscale. f_equal. field. auto.
Qed.

(** the grids are increasing *)
Lemma increasing_seq (h : nat -> R) n : forall k, (forall i, h i < h (S i)) -> increasing (map h (seq k n)).
Proof.
  induction n as [|n IH]; cbn; intros k H; [exact I|]. destruct n as [|n]; [exact I|].
  split; [apply H|]. apply (IH (S k) H).
Qed.
Lemma mk_grid_increasing log a b n : a < b -> (log = true -> 0 < a) -> (2 <= n)%nat -> increasing (mk_grid log a b n).
Proof.
  intros H Hl Hn. assert (N : 0 < INR (n - 1)) by (apply lt_0_INR; lia).
  unfold mk_grid. destruct log.
  - specialize (Hl eq_refl). unfold geomspace. apply increasing_seq. intros i. apply Rmult_lt_compat_l; [exact Hl|].
    apply exp_increasing. apply Rmult_lt_compat_r.
    + apply Rmult_lt_0_compat; [|now apply Rinv_0_lt_compat]. rewrite <- ln_1. apply ln_increasing; [lra|].
      apply (Rmult_lt_reg_r a); [exact Hl|]. unfold Rdiv. rewrite Rmult_assoc, Rinv_l; lra.
    + rewrite S_INR. lra.
  - unfold linspace. apply increasing_seq. intros i. apply Rplus_lt_compat_l. apply Rmult_lt_compat_r.
    + apply Rmult_lt_0_compat; [lra|now apply Rinv_0_lt_compat].
    + rewrite S_INR. lra.
Qed.
Lemma mk_grid_length log a b n : length (mk_grid log a b n) = n.
Proof. unfold mk_grid, geomspace, linspace. destruct log; now rewrite map_length, seq_length. Qed.

(** ** C38 *)
Definition ninv (s : nstate) : Prop :=
  n_emin (n_conf s) < n_emax (n_conf s) /\
  match n_prev s with
  | Some c => n_jit s = Some (mk_grid (n_log c) (n_emin c) (n_emax c) (n_grid c))
  | None => True
  end.
Lemma nconf_eqb_eq a b : nconf_eqb a b = true -> a = b.
Proof.
  unfold nconf_eqb. destruct a as [a1 a2 a3 a4], b as [b1 b2 b3 b4]; cbn.
  destruct (Reqb_spec a1 b1); [|discriminate]. destruct (Reqb_spec a2 b2); [|discriminate].
  destruct (Nat.eqb_spec a3 b3); [|discriminate]. cbn. intros H. apply Bool.eqb_prop in H. congruence.
Qed.
Lemma ninit_inv a b n l s : ninit a b n l = Ok s -> ninv s.
Proof.
  unfold ninit. destruct (Rleb_spec b a); [discriminate|]. intros H. inversion H; subst. split; cbn; [lra|exact I].
Qed.
Lemma nstep_inv s o : ninv s -> ninv (fst (fst (nstep s o))).
Proof.
  intros [H1 H2]. destruct o as [v|v|n|b|]; cbn [nstep].
  - destruct (Rleb_spec (n_emax (n_conf s)) v); cbn; split; cbn; auto; lra.
  - destruct (Rleb_spec v (n_emin (n_conf s))); cbn; split; cbn; auto; lra.
  - split; cbn; auto.
  - split; cbn; auto.
  - destruct (match n_prev s with Some p => nconf_eqb p (n_conf s) | None => false end); cbn; split; cbn; auto.
Qed.
Lemma nrun_inv ops : forall s, ninv s -> ninv (nrun s ops).
Proof. induction ops as [|o ops IH]; cbn; intros s H; [exact H|]. now apply IH, nstep_inv. Qed.
Lemma neval_current s : ninv s ->
  snd (nstep s NEval) = Some (mk_grid (n_log (n_conf s)) (n_emin (n_conf s)) (n_emax (n_conf s)) (n_grid (n_conf s))).
Proof.
  intros [_ H]. cbn [nstep]. destruct (n_prev s) as [p|]; [|reflexivity].
  destruct (nconf_eqb p (n_conf s)) eqn:E; [|reflexivity]. apply nconf_eqb_eq in E. subst p. exact H.
Qed.
Lemma nstep_rejected s o s' e g : nstep s o = (s', Some e, g) -> s' = s.
Proof.
  destruct o; cbn [nstep]; intros H.
  1,2: destruct (Rleb _ _); inversion H; reflexivity.
  1,2: discriminate.
  destruct (match n_prev s with Some p => nconf_eqb p (n_conf s) | None => false end); discriminate.
Qed.

(** ** which spectra are evaluated bin by bin *)
Section BinW.
Context (step : R -> R -> R).
Fixpoint bins (g : list R) : list R := match g with a :: ((b :: _) as r) => step a b :: bins r | _ => [] end.
Lemma bins_binwise : binwise bins.
Proof.
  split.
  - intros g. induction g as [|a [|b g] IH]; cbn in *; auto. rewrite IH. lia.
  - intros g1 b g2. induction g1 as [|a g1 IH]; [reflexivity|]. destruct g1 as [|a' g1]; [reflexivity|].
    cbn [List.app] in *. change (bins (a :: a' :: g1 ++ b :: g2)) with (step a a' :: bins (a' :: g1 ++ b :: g2)).
    change (bins (a :: a' :: g1 ++ [b])) with (step a a' :: bins (a' :: g1 ++ [b])). rewrite IH. reflexivity.
Qed.
End BinW.
Lemma binwise_ext f g : (forall e, f e = g e) -> binwise f -> binwise g.
Proof. intros H [A B]. split; intros; rewrite <- !H; auto. Qed.
Lemma trapz_binwise add c : binwise (trapz add c).
Proof.
  apply (binwise_ext (bins (fun a b => (if add then 1 / 2 * (b - a) else 1 / 2) * (c a + c b)))); [|apply bins_binwise].
  intros g. induction g as [|a [|b g] IH]; try reflexivity. cbn [bins trapz]. f_equal. exact IH.
Qed.
Lemma simpson_binwise add c : binwise (simpson add c).
Proof.
  apply (binwise_ext (bins (fun a b => (if add then (b - a) / 6 else 1 / 6) * (c a + 4 * c (1 / 2 * (a + b)) + c b)))); [|apply bins_binwise].
  intros g. induction g as [|a [|b g] IH]; try reflexivity. cbn [bins simpson]. f_equal. exact IH.
Qed.
Lemma anaint_binwise F : binwise (anaint F).
Proof.
  apply (binwise_ext (bins (fun a b => F b - F a))); [|apply bins_binwise].
  intros g. induction g as [|a [|b g] IH]; try reflexivity. cbn [bins anaint]. f_equal. exact IH.
Qed.
Lemma map2_binwise op f g : binwise f -> binwise g -> binwise (fun e => map2 op (f e) (g e)).
Proof.
  intros [Lf Sf] [Lg Sg]. split.
  - intros e. rewrite map2_length, Lf, Lg. lia.
  - intros g1 b g2. rewrite Sf, Sg. apply map2_app. now rewrite Lf, Lg.
Qed.
Lemma scale_binwise k f : binwise f -> binwise (fun e => f (scale_grid k e)).
Proof.
  intros [L S]. split.
  - intros g. rewrite L. unfold scale_grid. now rewrite map_length.
  - intros g1 b g2. unfold scale_grid. rewrite !map_app. apply (S (map (Rmult k) g1) (k * b)).
Qed.
Lemma map_binwise h f : binwise f -> binwise (fun e => map h (f e)).
Proof.
  intros [L S]. split.
  - intros g. now rewrite map_length.
  - intros g1 b g2. now rewrite S, map_app.
Qed.
Definition keeps_binwise (cv : spectrum -> spectrum) : Prop := forall f, binwise f -> binwise (cv f).
Lemma zashift_keeps z : keeps_binwise (zashift z).
Proof. intros f H. apply (map_binwise _ (fun e => f (scale_grid (1 + z) e))). now apply scale_binwise. Qed.
Lemma zmshift_keeps z : keeps_binwise (zmshift z).
Proof. intros f H. now apply scale_binwise. Qed.
Lemma vshift_keeps v : keeps_binwise (vshift v).
Proof. intros f H. now apply scale_binwise. Qed.
Lemma phflux_keeps F fg : keeps_binwise (phflux F fg).
Proof. intros f H. unfold phflux, vscale. now apply map_binwise. Qed.
Lemma enflux_keeps F fg : keeps_binwise (enflux F fg).
Proof. intros f H. unfold enflux, vscale. now apply map_binwise. Qed.
Lemma meval_binwise comp conv m : (forall c, binwise (comp c)) -> (forall c, keeps_binwise (conv c)) ->
  binwise (meval comp conv m).
Proof.
  intros Hc Hv. induction m as [c t|c s|o l IHl r IHr|c m IH]; cbn [meval]; auto.
  - destruct o; now apply map2_binwise.
  - now apply Hv.
Qed.

(** ** exactness of the quadratures *)
Lemma trapz_affine p q a b : trapz true (fun x => p + q * x) [a; b] = [p * (b - a) + q * (b ^ 2 - a ^ 2) / 2].
Proof. cbn [trapz]. f_equal. lra. Qed.
Lemma simpson_cubic p q r s a b :
  simpson true (fun x => p + q * x + r * x ^ 2 + s * x ^ 3) [a; b] =
  [p * (b - a) + q * (b ^ 2 - a ^ 2) / 2 + r * (b ^ 3 - a ^ 3) / 3 + s * (b ^ 4 - a ^ 4) / 4].
Proof. cbn [simpson]. f_equal. field. Qed.
Lemma trapz_mean c a b : trapz false c [a; b] = [(c a + c b) / 2].
Proof. cbn [trapz]. f_equal. field. Qed.
Lemma simpson_mean_const k a b : simpson false (fun _ => k) [a; b] = [k].
Proof. cbn [simpson]. f_equal. field. Qed.

(** ** C32: distinct labels *)
(** ids of the additive components occurring in a model, left to right *)
Fixpoint aleaves (m : model) : list nat :=
  match m with
  | MUni c Madd => [c]
  | MUni _ _ | MOp _ _ => []
  | MBin _ l r => aleaves l ++ aleaves r
  | MApp _ m => aleaves m
  end.
Fixpoint uleaves (m : model) : list (nat * mtype) :=
  match m with
  | MUni c t => [(c, t)]
  | MOp _ _ => []
  | MBin _ l r => uleaves l ++ uleaves r
  | MApp _ m => uleaves m
  end.
Lemma aleaves_mul m : legal m -> type_of m = Mmul -> aleaves m = [].
Proof.
  induction m as [c t|c s|o l IHl r IHr|c m IH]; cbn; intros W T.
  - now subst t.
  - reflexivity.
  - destruct o; [discriminate|]. destruct W as (Nl & Nr & _ & Wl & Wr).
    destruct (type_of l) eqn:El, (type_of r) eqn:Er; try discriminate; try congruence.
    now rewrite IHl, IHr.
  - destruct W. auto.
Qed.
Lemma aleaves_comps m : legal m -> type_of m = Madd ->
  concat (map aleaves (additive_comps m)) = aleaves m /\ Forall (fun c => aleaves c <> []) (additive_comps m).
Proof.
  induction m as [c t|c s|o l IHl r IHr|c m IH]; intros W T.
  - cbn in *. subst t. cbn. split; [reflexivity|]. repeat constructor. discriminate.
  - discriminate.
  - destruct o.
    + destruct W as (El & Er & Wl & Wr). destruct (IHl Wl El) as [A1 A2], (IHr Wr Er) as [B1 B2].
      cbn [additive_comps type_of mtype_eqb negb aleaves]. rewrite map_app, concat_app, A1, B1. split; [reflexivity|].
      apply Forall_app; auto.
    + pose proof W as W0. destruct W as (Nl & Nr & Hm & Wl & Wr). cbn [additive_comps]. rewrite T. cbn [mtype_eqb negb].
      destruct (mtype_eqb_spec (type_of l) Madd) as [El|El].
      * assert (Er : type_of r = Mmul) by (destruct Hm; congruence).
        destruct (IHl Wl El) as [A1 A2]. pose proof (aleaves_mul r Wr Er) as Rn. cbn [aleaves]. rewrite Rn, app_nil_r.
        destruct (2 <=? length (additive_comps l))%nat.
        -- rewrite map_map. cbn [aleaves]. rewrite Rn.
           assert (E : map (fun x => aleaves x ++ []) (additive_comps l) = map aleaves (additive_comps l)) by (apply map_ext; intros; apply app_nil_r).
           rewrite E. split; [exact A1|]. apply Forall_map. eapply Forall_impl; [|exact A2].
           cbn. intros x Hx. now rewrite Rn, app_nil_r.
        -- cbn. rewrite Rn, !app_nil_r. split; [reflexivity|]. constructor; [|constructor]. cbn. rewrite Rn, app_nil_r.
           intros E. rewrite <- A1 in E. destruct (additive_comps l) as [|x cs] eqn:C.
           ++ destruct (comps_total (fun _ _ => []) (fun _ f => f) l Wl El) as (y & ys & Ey & _); [clear; induction l; cbn; auto|].
              congruence.
           ++ inversion A2; subst. cbn in E. apply app_eq_nil in E. tauto.
      * assert (Er : type_of r = Madd).
        { cbn in T. destruct (type_of l); try congruence; destruct (type_of r); congruence. }
        assert (El' : type_of l = Mmul) by (destruct (type_of l); congruence).
        destruct (IHr Wr Er) as [A1 A2]. pose proof (aleaves_mul l Wl El') as Rn. cbn [aleaves]. rewrite Rn. cbn [List.app].
        destruct (2 <=? length (additive_comps r))%nat.
        -- rewrite map_map. cbn [aleaves]. rewrite Rn. cbn [List.app]. split; [exact A1|].
           apply Forall_map. eapply Forall_impl; [|exact A2]. cbn. intros x Hx. now rewrite Rn.
        -- cbn. rewrite Rn, !app_nil_r. split; [reflexivity|]. constructor; [|constructor]. cbn. rewrite Rn.
           intros E. cbn in E. rewrite <- A1 in E. destruct (additive_comps r) as [|x cs] eqn:C.
           ++ destruct (comps_total (fun _ _ => []) (fun _ f => f) r Wr Er) as (y & ys & Ey & _); [clear; induction r; cbn; auto|].
              congruence.
           ++ inversion A2; subst. cbn in E. apply app_eq_nil in E. tauto.
  - destruct W as [N W]. cbn in T. destruct (IH W T) as [A1 A2]. cbn [additive_comps type_of aleaves]. rewrite T. cbn [mtype_eqb negb].
    destruct (2 <=? length (additive_comps m))%nat.
    + rewrite map_map. cbn [aleaves]. split; [exact A1|]. apply Forall_map. exact A2.
    + cbn. rewrite app_nil_r. split; [reflexivity|]. constructor; [|constructor]. cbn.
      intros E. rewrite <- A1 in E. destruct (additive_comps m) as [|x cs] eqn:C.
      * destruct (comps_total (fun _ _ => []) (fun _ f => f) m W T) as (y & ys & Ey & _); [clear; induction m; cbn; auto|].
        congruence.
      * inversion A2; subst. cbn in E. apply app_eq_nil in E. tauto.
Qed.
(** the additive names in a label *)
Fixpoint lcore (isadd : string -> bool) (t : ltree) : list string :=
  match t with
  | LName s => if isadd s then [s] else []
  | LBin _ a b => lcore isadd a ++ lcore isadd b
  | LApp _ a => lcore isadd a
  end.
Fixpoint ops (m : model) : list nat :=
  match m with MUni _ _ => [] | MOp c _ => [c] | MBin _ l r => ops l ++ ops r | MApp _ m => ops m end.
Lemma lcore_llabel nm isadd m : ops m = [] ->
  (forall c t, In (c, t) (uleaves m) -> isadd (nm c) = mtype_eqb t Madd) ->
  lcore isadd (llabel nm m) = map nm (aleaves m).
Proof.
  induction m as [c t|c s|o l IHl r IHr|c m IH]; cbn; intros Ho H.
  - rewrite (H c t) by auto. destruct t; reflexivity.
  - discriminate.
  - apply app_eq_nil in Ho. destruct Ho. rewrite map_app. rewrite IHl, IHr; auto; intros; apply H, in_or_app; auto.
  - auto.
Qed.
Lemma legal_ops m : legal m -> type_of m <> Mconv -> ops m = [].
Proof.
  induction m as [c t|c s|o l IHl r IHr|c m IH]; cbn; intros W T; auto; [congruence| |destruct W; auto].
  destruct o.
  - destruct W as (El & Er & Wl & Wr). rewrite IHl, IHr; auto; congruence.
  - destruct W as (Nl & Nr & _ & Wl & Wr). rewrite IHl, IHr; auto.
Qed.
Lemma comps_ops m : ops m = [] -> Forall (fun c => ops c = []) (additive_comps m).
Proof.
  assert (S : forall x, ops x = [] -> Forall (fun c => ops c = []) [x]) by (repeat constructor; auto).
  induction m as [c t|c s|o l IHl r IHr|c m IH]; intros H; cbn [additive_comps].
  - destruct (negb _); constructor; auto.
  - destruct (negb _); [constructor|auto].
  - assert (Hb := H). cbn in H. apply app_eq_nil in H. destruct H as [Hl Hr].
    destruct (negb _); [constructor|]. destruct o; [apply Forall_app; auto|].
    destruct (mtype_eqb (type_of l) Madd); (destruct (2 <=? _)%nat; [|now apply S]).
    + apply Forall_map. eapply Forall_impl; [|apply (IHl Hl)]. cbn. intros a ->. exact Hr.
    + apply Forall_map. eapply Forall_impl; [|apply (IHr Hr)]. cbn. intros a ->. now rewrite Hl.
  - destruct (negb _); [constructor|]. destruct (2 <=? _)%nat; [|now apply S]. apply Forall_map. exact (IH H).
Qed.
Lemma comps_uleaves m : Forall (fun c => incl (uleaves c) (uleaves m)) (additive_comps m).
Proof.
  assert (S : forall x, Forall (fun c => incl (uleaves c) (uleaves x)) [x]) by (repeat constructor; apply incl_refl).
  assert (A1 : forall P l r (cs : list model), P = uleaves l -> Forall (fun c => incl (uleaves c) P) cs -> Forall (fun c => incl (uleaves c) (uleaves l ++ uleaves r)) cs).
  { intros. subst P. eapply Forall_impl; [|eassumption]. intros; now apply incl_appl. }
  induction m as [c t|c s|o l IHl r IHr|c m IH]; cbn [additive_comps].
  - destruct (negb _); [constructor|apply S].
  - destruct (negb _); [constructor|apply S].
  - destruct (negb _); [constructor|]. cbn [uleaves]. destruct o.
    + apply Forall_app. split; [now apply (A1 (uleaves l))|]. eapply Forall_impl; [|exact IHr]. intros; now apply incl_appr.
    + destruct (mtype_eqb (type_of l) Madd); (destruct (2 <=? _)%nat; [|apply (S (MBin MTimes l r))]).
      * apply Forall_map. eapply Forall_impl; [|exact IHl]. cbn. intros. apply incl_app; [now apply incl_appl|apply incl_appr, incl_refl].
      * apply Forall_map. eapply Forall_impl; [|exact IHr]. cbn. intros. apply incl_app; [apply incl_appl, incl_refl|now apply incl_appr].
  - destruct (negb _); [constructor|]. cbn [uleaves]. destruct (2 <=? _)%nat; [|apply (S (MApp c m))]. apply Forall_map. exact IH.
Qed.
Lemma concat_nodup_map {A B} (f : A -> list B) l : NoDup (concat (map f l)) -> Forall (fun x => f x <> []) l -> NoDup (map f l).
Proof.
  induction l as [|x l IH]; cbn; intros H F; [constructor|]. inversion F as [|? ? Fx Fl]; subst.
  assert (Hl : NoDup (concat (map f l))) by (clear -H; induction (f x); [exact H|]; inversion H; auto).
  constructor; [|auto]. intros Hin. destruct (f x) as [|y t] eqn:E; [congruence|].
  cbn in H. inversion H as [|? ? Hn _]; subst. apply Hn, in_or_app. right.
  apply in_concat. exists (y :: t). split; [exact Hin|now left].
Qed.
Lemma NoDup_map_inv' {A B} (f : A -> B) l : NoDup (map f l) -> NoDup l.
Proof.
  induction l as [|x l IH]; cbn; intros H; [constructor|]. inversion H; subst. constructor; auto.
  intros Hin. match goal with H : ~ _ |- _ => apply H end. now apply in_map.
Qed.
Lemma comps_labels_nodup nm isadd m : legal m -> type_of m = Madd ->
  (forall c t, In (c, t) (uleaves m) -> isadd (nm c) = mtype_eqb t Madd) ->
  NoDup (map nm (aleaves m)) -> NoDup (map (llabel nm) (additive_comps m)).
Proof.
  intros W T Hty N. destruct (aleaves_comps m W T) as [A1 A2].
  apply (NoDup_map_inv' (lcore isadd)). rewrite map_map.
  assert (E : map (fun x => lcore isadd (llabel nm x)) (additive_comps m) = map (fun x => map nm (aleaves x)) (additive_comps m)).
  { apply map_ext_in. intros x Hx.
    assert (Ho : ops m = []) by (apply legal_ops; congruence).
    apply lcore_llabel.
    - exact (proj1 (Forall_forall _ _) (comps_ops m Ho) x Hx).
    - intros c t Hc. apply Hty. exact (proj1 (Forall_forall _ _) (comps_uleaves m) x Hx _ Hc). }
  rewrite E. apply concat_nodup_map.
  - rewrite <- A1, concat_map, map_map in N. exact N.
  - eapply Forall_impl; [|exact A2]. cbn. intros x Hx Hn. apply map_eq_nil in Hn. auto.
Qed.

(** pointwise reading of [total] *)
Lemma nth_map2_plus a : forall b i, length a = length b -> nth i (map2 Rplus a b) 0 = nth i a 0 + nth i b 0.
Proof. induction a as [|x a IH]; intros [|y b] [|i] L; cbn in *; try discriminate; try lra; apply IH; lia. Qed.
Lemma total_nth l : forall v e n i, length (v e) = n -> Forall (fun s : spectrum => length (s e) = n) l ->
  length (total v l e) = n /\ nth i (total v l e) 0 = rsum (map (fun s : spectrum => nth i (s e) 0) (v :: l)).
Proof.
  induction l as [|x l IH]; intros v e n i Lv F.
  - cbn. split; [exact Lv|]. lra.
  - inversion F; subst. change (total v (x :: l)) with (total (sadd v x) l).
    assert (Ls : length (sadd v x e) = length (v e)) by (unfold sadd; rewrite map2_length; lia).
    destruct (IH (sadd v x) e (length (v e)) i Ls) as [A B]; [exact H2|]. split; [exact A|]. rewrite B.
    cbn [map]. unfold rsum. cbn [fold_right]. unfold sadd at 1. rewrite nth_map2_plus by congruence. lra.
Qed.
