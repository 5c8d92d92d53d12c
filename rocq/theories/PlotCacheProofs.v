(** When the cached plot quantities are those of the current result. *)
From Verif Require Import RBase Data HelperData Results Summary PlotCache.
From Coq Require Import List.
Open Scope list_scope.

Section Machine.
Context {C L T : Type}.
Variables (leqb : L -> L -> bool) (teqb : T -> T -> bool).
Hypothesis leqb_spec : forall a b, reflect (a = b) (leqb a b).
Hypothesis teqb_spec : forall a b, reflect (a = b) (teqb a b).
Variable none_id : Z.
Variables (lbody : L -> option C -> R -> res val) (uses : T -> option C -> list L) (tbody : T -> option C -> R -> list val -> res val).
Notation pd := (plot_data C L T).
Notation q_leaf := (q_leaf leqb none_id lbody).
Notation q_leaves := (q_leaves leqb none_id lbody).
Notation q_top := (q_top leqb teqb none_id lbody uses tbody).
Notation query := (query leqb teqb none_id lbody uses tbody).
Notation events := (events leqb teqb none_id lbody uses tbody).
Notation event_step := (event_step leqb teqb none_id lbody uses tbody).
Notation cid := (cid none_id).
Notation new := (new_plot_data none_id).

(** the values without any cache *)
Definition fresh_top (t : T) (c : option C) (k : R) : res val := bind (mapE (fun l => lbody l c 0) (uses t c)) (tbody t c k).
Definition fresh (m : method L T) (c : option C) : res val := match m with Leaf l k => lbody l c k | Top t k => fresh_top t c k end.

Definition good_l (s : pd) (l : L) : Prop := sl_id (lslot s l) = cid s -> forall k v, In (k, v) (sl_tab (lslot s l)) -> lbody l (content s) k = Ok v.
Definition good_t (s : pd) (t : T) : Prop := sl_id (tslot s t) = cid s -> forall k v, In (k, v) (sl_tab (tslot s t)) -> fresh_top t (content s) k = Ok v.

Lemma lookup_in k t v : lookup k t = Some v -> In (k, v) t.
Proof. induction t as [|[k' v'] t IH]; cbn; [discriminate|]. destruct (Req_EM_T k k') as [->|N]; [intros H; injection H as ->; now left|intros H; right; now apply IH]. Qed.
Lemma leqb_refl l : leqb l l = true. Proof. now destruct (leqb_spec l l). Qed.
Lemma teqb_refl t : teqb t t = true. Proof. now destruct (teqb_spec t t). Qed.

(** what a call does to the remembered identities *)
Definition keeps (s s' : pd) : Prop :=
  cur s' = cur s /\ (forall l, sl_id (lslot s' l) = sl_id (lslot s l) \/ sl_id (lslot s' l) = cid s) /\ (forall t, sl_id (tslot s' t) = sl_id (tslot s t) \/ sl_id (tslot s' t) = cid s).
Lemma keeps_refl s : keeps s s. Proof. repeat split; auto. Qed.
Lemma keeps_trans a b c : keeps a b -> keeps b c -> keeps a c.
Proof.
  intros (A & B & D) (A' & B' & D'). assert (E : cid b = cid a) by (unfold PlotCache.cid; now rewrite A). rewrite E in *. repeat split; [congruence| |].
  - intros l. destruct (B' l) as [X|X]; [rewrite X; apply B|now right].
  - intros t. destruct (D' t) as [X|X]; [rewrite X; apply D|now right].
Qed.
Lemma keeps_cid a b : keeps a b -> cid b = cid a /\ content b = content a.
Proof. intros (A & _). unfold PlotCache.cid, content. now rewrite A. Qed.

Lemma leaf_fresh l k s : good_l s l -> let '(r, s') := q_leaf l k s in
  r = lbody l (content s) k /\ keeps s s' /\ sl_id (lslot s' l) = cid s /\
  (forall l', good_l s l' -> good_l s' l') /\ (forall t, tslot s' t = tslot s t).
Proof.
  intros G. unfold PlotCache.q_leaf. set (s1 := if (sl_id (lslot s l) =? cid s)%Z then s else _).
  assert (S1 : keeps s s1 /\ sl_id (lslot s1 l) = cid s /\ (forall l', good_l s l' -> good_l s1 l') /\ (forall t, tslot s1 t = tslot s t) /\ content s1 = content s /\ cid s1 = cid s).
  { unfold s1. destruct (Z.eqb_spec (sl_id (lslot s l)) (cid s)) as [E|E]; [repeat split; auto using keeps_refl|]. repeat split; auto.
    - cbn. intros l'. destruct (leqb l' l); auto.
    - cbn. now rewrite leqb_refl.
    - intros l' G'. unfold good_l. cbn. destruct (leqb l' l); [intros _ k0 v [] |exact G']. }
  destruct S1 as (K1 & I1 & G1 & T1 & C1 & D1). specialize (G1 l G) as Gl.
  destruct (lookup k (sl_tab (lslot s1 l))) as [v|] eqn:Ev.
  - apply lookup_in in Ev. specialize (Gl ltac:(congruence) _ _ Ev). rewrite C1 in Gl. repeat split; auto; try apply K1.
  - rewrite C1. destruct (lbody l (content s) k) as [v|e] eqn:Eb; [|repeat split; auto; apply K1].
    split; [reflexivity|]. split; [|split; [|split]].
    + apply keeps_trans with s1; [exact K1|]. repeat split; [|cbn; now left]. cbn. intros l'. destruct (leqb_spec l' l) as [->|N]; now left.
    + cbn. rewrite leqb_refl. exact I1.
    + intros l' G'. unfold good_l. cbn. destruct (leqb_spec l' l) as [->|N]; [|now apply G1]. cbn [sl_id sl_tab]. intros I k0 v0 [E|H]; [injection E as <- <-; unfold content in *; cbn; rewrite C1; exact Eb|now apply Gl].
    + exact T1.
Qed.
Lemma leaves_fresh ls s : (forall l, In l ls -> good_l s l) -> let '(r, s') := q_leaves ls s in
  r = mapE (fun l => lbody l (content s) 0) ls /\ keeps s s' /\ (forall vs, r = Ok vs -> forall l, In l ls -> sl_id (lslot s' l) = cid s) /\
  (forall l', good_l s l' -> good_l s' l') /\ (forall t, tslot s' t = tslot s t).
Proof.
  revert s. induction ls as [|l ls IH]; intros s G; cbn [PlotCache.q_leaves mapE].
  - repeat split; auto using keeps_refl; try apply keeps_refl. intros vs _ l [].
  - pose proof (leaf_fresh l 0 s (G l (or_introl eq_refl))) as H. destruct (q_leaf l 0 s) as [r s1]. destruct H as (E & K & I & G1 & T1).
    rewrite <- E. destruct r as [v|e]; cbn [bind].
    2:{ repeat split; auto; try apply K. intros vs X. discriminate. }
    specialize (IH s1 (fun l' Hl => G1 l' (G l' (or_intror Hl)))). destruct (q_leaves ls s1) as [r' s2]. destruct IH as (E' & K' & I' & G2 & T2).
    destruct (keeps_cid _ _ K) as [Ci Cc]. rewrite Cc in E'. rewrite <- E'. assert (KK : keeps s s2) by (eapply keeps_trans; eassumption).
    assert (TT : forall t, tslot s2 t = tslot s t) by (intros t; rewrite T2; apply T1).
    destruct r' as [vs|e]; cbn [bind]; repeat split; auto; try apply KK.
    + intros vs' Ev l' [->|Hl]; [|rewrite <- Ci; now apply (I' vs)]. destruct K' as (_ & K' & _). destruct (K' l') as [X|X]; congruence.
    + intros vs X. discriminate.
Qed.
Lemma top_fresh t k s : good_t s t -> (forall l, In l (uses t (content s)) -> good_l s l) -> let '(r, s') := q_top t k s in
  r = fresh_top t (content s) k /\ keeps s s' /\ sl_id (tslot s' t) = cid s /\
  (forall l', good_l s l' -> good_l s' l') /\ (forall t', good_t s t' -> good_t s' t') /\
  (sl_id (tslot s t) <> cid s -> (exists vs, mapE (fun l => lbody l (content s) 0) (uses t (content s)) = Ok vs) -> forall l, In l (uses t (content s)) -> sl_id (lslot s' l) = cid s) /\
  (forall t', t' <> t -> tslot s' t' = tslot s t').
Proof.
  intros G GL. unfold PlotCache.q_top. set (s1 := if (sl_id (tslot s t) =? cid s)%Z then s else _).
  assert (S1 : keeps s s1 /\ sl_id (tslot s1 t) = cid s /\ (forall t', good_t s t' -> good_t s1 t') /\ (forall l, lslot s1 l = lslot s l) /\ content s1 = content s /\ cid s1 = cid s /\
               (sl_id (tslot s t) <> cid s -> sl_tab (tslot s1 t) = []) /\ (forall t', t' <> t -> tslot s1 t' = tslot s t')).
  { unfold s1. destruct (Z.eqb_spec (sl_id (tslot s t)) (cid s)) as [E|E]; [repeat split; auto using keeps_refl; now intros|]. repeat split; auto.
    - cbn. intros t'. destruct (teqb t' t); auto.
    - cbn. now rewrite teqb_refl.
    - intros t' G'. unfold good_t. cbn. destruct (teqb t' t); [intros _ k0 v [] |exact G'].
    - intros _. cbn. now rewrite teqb_refl.
    - intros t' N. cbn. now destruct (teqb_spec t' t). }
  destruct S1 as (K1 & I1 & G1 & L1 & C1 & D1 & N1 & O1). specialize (G1 t G) as Gt.
  assert (GL1 : forall l', good_l s l' -> good_l s1 l') by (intros l' X; unfold good_l in *; rewrite L1, D1, C1; exact X).
  destruct (lookup k (sl_tab (tslot s1 t))) as [v|] eqn:Ev.
  - pose proof (lookup_in _ _ _ Ev) as Hv. specialize (Gt ltac:(congruence) _ _ Hv). rewrite C1 in Gt. split; [now symmetry|]. split; [exact K1|]. split; [exact I1|]. split; [exact GL1|]. split; [exact G1|]. split; [|exact O1].
    intros X. rewrite (N1 X) in Ev. discriminate.
  - pose proof (leaves_fresh (uses t (content s1)) s1) as H. rewrite C1 in *. specialize (H (fun l Hl => GL1 l (GL l Hl))).
    destruct (q_leaves (uses t (content s)) s1) as [r s2]. destruct H as (E & K2 & I2 & G2 & T2). destruct (keeps_cid _ _ K2) as [Ci Cc].
    assert (KK : keeps s s2) by (eapply keeps_trans; eassumption). assert (GT2 : forall t', good_t s1 t' -> good_t s2 t') by (intros t' X; unfold good_t in *; rewrite T2, Ci, Cc; exact X).
    assert (O2 : forall t', t' <> t -> tslot s2 t' = tslot s t') by (intros t' N; rewrite T2; now apply O1).
    unfold fresh_top. rewrite <- E. destruct r as [vs|e]; cbn [bind].
    2:{ split; [reflexivity|]. split; [exact KK|]. split; [rewrite T2; exact I1|]. split; [auto|]. split; [auto|]. split; [|exact O2]. intros _ [v X]. discriminate. }
    assert (Sy : forall l, In l (uses t (content s)) -> sl_id (lslot s2 l) = cid s) by (intros l Hl; rewrite <- D1; now apply (I2 vs)).
    rewrite Cc, C1. destruct (tbody t (content s) k vs) as [v|e] eqn:Eb.
    2:{ split; [reflexivity|]. split; [exact KK|]. split; [rewrite T2; exact I1|]. split; [auto|]. split; [auto|]. split; [|exact O2]. intros _ _. exact Sy. }
    split; [reflexivity|]. split; [|split; [|split; [|split; [|split]]]].
    + eapply keeps_trans; [exact KK|]. repeat split; [cbn; now left|]. cbn. intros t'. destruct (teqb_spec t' t) as [->|N]; now left.
    + cbn. rewrite teqb_refl. cbn. now rewrite T2.
    + intros l' X. unfold good_l. cbn. apply (G2 l' (GL1 l' X)).
    + intros t' X. unfold good_t. cbn. destruct (teqb_spec t' t) as [->|N]; [|exact (GT2 t' (G1 t' X))]. cbn [sl_id sl_tab]. intros I k0 v0 [Q|Q].
      * injection Q as <- <-. change (fresh_top t (content s2) k = Ok v). rewrite Cc, C1. unfold fresh_top. rewrite <- E. exact Eb.
      * exact (GT2 t (G1 t G) I k0 v0 Q).
    + intros X _ l Hl. cbn. now apply Sy.
    + intros t' N. cbn. destruct (teqb_spec t' t); [easy|now apply O2].
Qed.

(** *** results with identities never used before *)
Lemma new_good o : (forall l, good_l (new o) l) /\ (forall t, good_t (new o) t).
Proof. split; intros ? ? k v []. Qed.
Definition ids_in (s : pd) (seen : list Z) : Prop := In (cid s) seen /\ (forall l, In (sl_id (lslot s l)) seen) /\ (forall t, In (sl_id (tslot s t)) seen).
Lemma keeps_ids s s' seen : keeps s s' -> ids_in s seen -> ids_in s' seen.
Proof.
  intros K (A & B & D). destruct (keeps_cid _ _ K) as [Ci _]. destruct K as (_ & KL & KT). split; [now rewrite Ci|]. split; [intros l; destruct (KL l) as [-> | ->]; auto|intros t; destruct (KT t) as [-> | ->]; auto].
Qed.
Definition all_good (s : pd) : Prop := (forall l, good_l s l) /\ (forall t, good_t s t).
Lemma query_fresh m s : all_good s -> let '(r, s') := query m s in r = fresh m (content s) /\ keeps s s' /\ all_good s'.
Proof.
  intros [GL GT]. destruct m as [l k|t k]; cbn [PlotCache.query fresh].
  - pose proof (leaf_fresh l k s (GL l)) as H. destruct (q_leaf l k s) as [r s']. destruct H as (E & K & _ & G & Tt). split; [exact E|]. split; [exact K|]. split; [intros l'; apply G, GL|].
    destruct (keeps_cid _ _ K) as [Ci Cc]. intros t'. unfold good_t. rewrite Tt, Ci, Cc. apply GT.
  - pose proof (top_fresh t k s (GT t) (fun l _ => GL l)) as H. destruct (q_top t k s) as [r s']. destruct H as (E & K & _ & G & G' & _). repeat split; auto; try apply K.
Qed.
(** the identities of the results of a history *)
Definition new_ids (h : list (event C L T)) : list Z := flat_map (fun e => match e with Replace o => [o_id o] | Call _ => [] end) h.
Lemma events_fresh h : forall s seen, all_good s -> ids_in s seen -> NoDup (new_ids h) -> (forall i, In i (new_ids h) -> ~ In i seen) -> all_good (events s h).
Proof.
  induction h as [|[o|m] h IH]; intros s seen G I N D; cbn [PlotCache.events fold_left]; [exact G| |].
  - cbn [new_ids flat_map app] in N, D. fold (new_ids h) in N, D. inversion N as [|? ? No N']; subst. destruct I as (Ic & Il & It).
    apply (IH _ (o_id o :: seen)); [| | exact N'|].
    + assert (F : ~ In (o_id o) seen) by (apply D; now left). split; [intros l E|intros t E]; cbn in E; exfalso; apply F; rewrite <- E; [apply Il|apply It].
    + split; [now left|]. split; intros; right; [apply Il|apply It].
    + intros i Hi [<-|Hs]; [now apply No|]. revert Hs. apply D. now right.
  - pose proof (query_fresh m s G) as Q. cbn [PlotCache.event_step]. destruct (query m s) as [r s']. destruct Q as (_ & K & G'). apply (IH _ seen); [exact G'|now apply (keeps_ids s)|exact N|exact D].
Qed.

(** *** results whose identity only differs from that of the result they replace *)
Section Paced.
Definition class (m : method L T) : L + T := match m with Leaf l _ => inl l | Top t _ => inr t end.
Variable used : L + T -> Prop.
(** only methods of [used] are called, and before a result is replaced each of them has been called since the previous one
    was made; [id] is the identity of the current result, [done] the methods called since it was made *)
Fixpoint paced (id : Z) (done : L + T -> Prop) (h : list (event C L T)) : Prop :=
  match h with
  | [] => True
  | Call m :: h => used (class m) /\ paced id (fun x => done x \/ x = class m) h
  | Replace o :: h => o_id o <> id /\ (forall x, used x -> done x) /\ paced (o_id o) (fun _ => False) h
  end.
Hypothesis uses_some : forall t c c', uses t (Some c) = uses t (Some c').
Hypothesis uses_none : forall t, uses t None = [].
Hypothesis leaves_ok : forall t c l, In l (uses t (Some c)) -> exists v, lbody l (Some c) 0 = Ok v.
Definition reached (l : L) : Prop := used (inl l) \/ exists t c, used (inr t) /\ In l (uses t (Some c)).
Record inv (s : pd) (done : L + T -> Prop) : Prop := {
  i_l : forall l, reached l -> good_l s l;
  i_t : forall t, used (inr t) -> good_t s t;
  i_j : forall t, used (inr t) -> sl_id (tslot s t) = cid s -> forall c l, In l (uses t (Some c)) -> sl_id (lslot s l) = cid s;
  i_dl : forall l, used (inl l) -> done (inl l) -> sl_id (lslot s l) = cid s;
  i_dt : forall t, used (inr t) -> done (inr t) -> sl_id (tslot s t) = cid s }.
Lemma mapE_all_ok {A B} (f : A -> res B) l : (forall x, In x l -> exists y, f x = Ok y) -> exists ys, mapE f l = Ok ys.
Proof.
  induction l as [|x l IH]; intros H; [now exists []|]. destruct (H x (or_introl eq_refl)) as [y E]. destruct IH as [ys E']; [intros z Hz; apply H; now right|].
  exists (y :: ys). cbn [mapE]. rewrite E. cbn [bind]. now rewrite E'.
Qed.
Lemma query_inv m s done : used (class m) -> inv s done -> (cur s = None -> forall l, sl_id (lslot s l) = cid s) ->
  let '(r, s') := query m s in r = fresh m (content s) /\ keeps s s' /\ inv s' (fun x => done x \/ x = class m).
Proof.
  intros U I N0. destruct m as [l k|t k]; cbn [PlotCache.query fresh class] in *.
  - pose proof (leaf_fresh l k s (i_l _ _ I l (or_introl U))) as H. destruct (q_leaf l k s) as [r s']. destruct H as (E & K & Id & G & Tt). split; [exact E|]. split; [exact K|].
    destruct (keeps_cid _ _ K) as [Ci Cc]. assert (St : forall l', sl_id (lslot s l') = cid s -> sl_id (lslot s' l') = cid s) by (intros l' X; destruct K as (_ & K & _); destruct (K l') as [Y|Y]; congruence).
    constructor.
    + intros l' R. now apply G, (i_l _ _ I).
    + intros t' R. unfold good_t. rewrite Tt, Ci, Cc. now apply (i_t _ _ I).
    + intros t' R. rewrite Tt, Ci. intros X c l' Hl. now apply St, (i_j _ _ I t' R X c).
    + intros l' R [D|D]; [rewrite Ci; now apply St, (i_dl _ _ I)|]. injection D as ->. now rewrite Ci.
    + intros t' R [D|D]; [rewrite Tt, Ci; now apply (i_dt _ _ I)|discriminate].
  - assert (Gl : forall l, In l (uses t (content s)) -> good_l s l).
    { intros l Hl. apply (i_l _ _ I). right. unfold content in Hl. destruct (cur s) as [o|]; cbn in Hl; [exists t, (o_c o); now split|rewrite uses_none in Hl; destruct Hl]. }
    pose proof (top_fresh t k s (i_t _ _ I t U) Gl) as H. destruct (q_top t k s) as [r s']. destruct H as (E & K & Id & G & G' & Sy & Ot). split; [exact E|]. split; [exact K|].
    destruct (keeps_cid _ _ K) as [Ci Cc]. assert (St : forall l', sl_id (lslot s l') = cid s -> sl_id (lslot s' l') = cid s) by (intros l' X; destruct K as (_ & K & _); destruct (K l') as [Y|Y]; congruence).
    assert (Jt : forall c l, In l (uses t (Some c)) -> sl_id (lslot s' l) = cid s).
    { intros c l Hl. destruct (Z.eq_dec (sl_id (tslot s t)) (cid s)) as [X|X]; [now apply St, (i_j _ _ I t U X c)|].
      destruct (cur s) as [o|] eqn:Ec; [|now apply St, N0]. assert (Eu : uses t (content s) = uses t (Some c)) by (unfold content; rewrite Ec; apply uses_some).
      apply (Sy X); [|now rewrite Eu]. apply mapE_all_ok. intros x Hx. unfold content in *. rewrite Ec in *. now apply (leaves_ok t). }
    constructor.
    + intros l' R. now apply G, (i_l _ _ I).
    + intros t' R. now apply G', (i_t _ _ I).
    + intros t' R. rewrite Ci. intros X c l' Hl. destruct (teqb_spec t' t) as [->|N]; [now apply (Jt c)|]. rewrite (Ot t' N) in X. now apply St, (i_j _ _ I t' R X c).
    + intros l' R [D|D]; [rewrite Ci; now apply St, (i_dl _ _ I)|discriminate].
    + intros t' R [D|D]; [|injection D as ->; now rewrite Ci]. rewrite Ci. destruct K as (_ & _ & K). destruct (K t') as [Y|Y]; [rewrite Y; now apply (i_dt _ _ I)|exact Y].
Qed.
Lemma paced_inv h : forall s done, inv s done -> (cur s = None -> forall l, sl_id (lslot s l) = cid s) -> paced (cid s) done h ->
  exists done', inv (events s h) done' /\ (cur (events s h) = None -> forall l, sl_id (lslot (events s h) l) = cid (events s h)).
Proof.
  induction h as [|[o|m] h IH]; intros s done I N0 P; cbn [PlotCache.events fold_left]; [now exists done| |].
  - destruct P as (Ni & D & P). cbn [PlotCache.event_step]. apply IH with (done := fun _ => False); [|cbn; discriminate|exact P].
    assert (Lt : forall t, used (inr t) -> sl_id (tslot s t) = cid s) by (intros t U; apply (i_dt _ _ I t U), D, U).
    assert (Ll : forall l, reached l -> sl_id (lslot s l) = cid s).
    { intros l [U|(t & c & U & Hl)]; [apply (i_dl _ _ I l U), D, U|]. now apply (i_j _ _ I t U (Lt t U) c). }
    constructor; cbn [lslot tslot PlotCache.cid cur]; try tauto.
    + intros l R X. exfalso. cbn in X. apply Ni. rewrite <- X. now apply Ll.
    + intros t U X. exfalso. cbn in X. apply Ni. rewrite <- X. now apply Lt.
    + intros t U X. exfalso. cbn in X. apply Ni. rewrite <- X. now apply Lt.
  - destruct P as (U & P). pose proof (query_inv m s done U I N0) as Q. cbn [PlotCache.event_step]. destruct (query m s) as [r s']. destruct Q as (_ & K & I'). destruct (keeps_cid _ _ K) as [Ci Cc].
    cbn [snd]. apply (IH s' _ I'); [|now rewrite Ci]. intros Hn l. destruct K as (Kc & Kl & _). rewrite Kc in Hn. destruct (Kl l) as [Y|Y]; rewrite Y; [|now symmetry]. rewrite Ci. now apply N0.
Qed.
Lemma new_inv o : inv (new o) (fun _ => True).
Proof. constructor; try reflexivity; intros ? ? ? ? ? []. Qed.
End Paced.
End Machine.
