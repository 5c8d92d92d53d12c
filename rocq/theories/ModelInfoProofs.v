(** Lemmas behind C34, C35. *)
From Verif Require Import Base Expr Composite CompositeProofs Namespace NamespaceProofs ModelInfo.
From Coq Require Import Ascii List.
Import ListNotations.
Open Scope list_scope.

(** [q] is [p] or one of its (nested) operands *)
Inductive part (q : param) : param -> Prop :=
| part_refl : part q q
| part_l i o l r : part q l -> part q (PBin i o l r)
| part_r i o l r : part q r -> part q (PBin i o l r)
| part_a i f args a : In a args -> part q a -> part q (PFun i f args).

Lemma slot_eqb_spec a b : reflect (a = b) (slot_eqb a b).
Proof. unfold slot_eqb. destruct (slot_eq_dec a b); now constructor. Qed.
Lemma slot_eqb_refl a : slot_eqb a a = true.
Proof. destruct (slot_eqb_spec a a); congruence. Qed.

(** ** dicts *)
Lemma dput_keys {V} (d : list (nat * V)) k v : forall x, In x (map fst (dput d k v)) <-> In x (map fst d) \/ x = k.
Proof.
  induction d as [|[k' v'] d IH]; intros x; cbn [dput map fst In].
  - intuition congruence.
  - destruct (Nat.eqb_spec k k') as [->|N]; cbn [map fst In]; [intuition congruence|]. rewrite IH. tauto.
Qed.
Lemma dput_nodup {V} (d : list (nat * V)) k v : NoDup (map fst d) -> NoDup (map fst (dput d k v)).
Proof.
  induction d as [|[k' v'] d IH]; intros H; cbn [dput map fst]; [constructor; [easy|constructor]|].
  cbn [map fst] in H. inversion H as [|? ? H1 H2]; subst.
  destruct (Nat.eqb_spec k k') as [->|N]; cbn [map fst]; [exact H|]. constructor; [|now apply IH].
  rewrite dput_keys. intros [X|X]; [contradiction|congruence].
Qed.
Lemma dput_in {V} (d : list (nat * V)) k v p : In p (dput d k v) -> In p d \/ p = (k, v).
Proof.
  induction d as [|[k' v'] d IH]; cbn [dput In]; [intuition congruence|].
  destruct (Nat.eqb_spec k k') as [->|N]; cbn [In]; intuition congruence.
Qed.
Lemma dunion_keys {V} (y : list (nat * V)) : forall x k, In k (map fst (dunion x y)) <-> In k (map fst x) \/ In k (map fst y).
Proof.
  unfold dunion. induction y as [|[k' v] y IH]; intros x k; cbn [fold_left map fst snd In]; [tauto|].
  rewrite IH, dput_keys. intuition congruence.
Qed.
Lemma dunion_nodup {V} (y : list (nat * V)) : forall x, NoDup (map fst x) -> NoDup (map fst (dunion x y)).
Proof. unfold dunion. induction y as [|[k v] y IH]; intros x H; cbn [fold_left]; [exact H|]. apply IH. now apply dput_nodup. Qed.
Lemma dunion_in {V} (y : list (nat * V)) : forall x p, In p (dunion x y) -> In p x \/ In p y.
Proof.
  unfold dunion. induction y as [|[k v] y IH]; intros x p; cbn [fold_left fst snd In]; [tauto|].
  intros H. apply IH in H as [H|H]; [|tauto]. apply dput_in in H as [H|H]; [tauto|]. right; left. congruence.
Qed.
Lemma dget_in {V} (d : list (nat * V)) k v : dget d k = Some v -> In (k, v) d.
Proof.
  induction d as [|[k' v'] d IH]; cbn [dget]; [discriminate|]. destruct (Nat.eqb_spec k k') as [->|N].
  - intros E. injection E as ->. now left.
  - intros E. right. auto.
Qed.
Lemma dget_nodup {V} (d : list (nat * V)) k v : NoDup (map fst d) -> In (k, v) d -> dget d k = Some v.
Proof.
  induction d as [|[k' v'] d IH]; intros H Hin; [easy|]. cbn [map fst] in H. inversion H as [|? ? H1 H2]; subst. cbn [dget].
  destruct (Nat.eqb_spec k k') as [->|N].
  - destruct Hin as [E|Hin]; [congruence|]. contradiction H1. apply in_map_iff. now exists (k', v).
  - destruct Hin as [E|Hin]; [congruence|]. auto.
Qed.
Lemma dget_none {V} (d : list (nat * V)) k : dget d k = None <-> ~ In k (map fst d).
Proof.
  induction d as [|[k' v'] d IH]; cbn [dget map fst In]; [tauto|]. destruct (Nat.eqb_spec k k') as [->|N].
  - split; [discriminate|]. intros H. contradiction H. now left.
  - rewrite IH. intuition congruence.
Qed.
Lemma dget_some_key {V} (d : list (nat * V)) k : In k (map fst d) -> exists v, dget d k = Some v.
Proof. intros H. destruct (dget d k) eqn:E; [eauto|]. now apply dget_none in E. Qed.
Lemma dget_app {V} (a b : list (nat * V)) k : dget (a ++ b) k = match dget a k with Some v => Some v | None => dget b k end.
Proof. induction a as [|[k' v'] a IH]; [reflexivity|]. cbn [List.app dget]. destruct (Nat.eqb k k'); [reflexivity|exact IH]. Qed.

(** ** [params_info] *)
Definition info_ok (ps : list param) (d : list (nat * param)) : Prop :=
  NoDup (map fst d) /\ (forall i q, In (i, q) d -> pid q = i /\ exists p, In p ps /\ part q p) /\
  (forall q p, In p ps -> part q p -> In (pid q) (map fst d)).
Lemma pinfo_ok p : info_ok [p] (pinfo p).
Proof.
  induction p as [i|i o l r IHl IHr|i f args IH] using param_ind'.
  - cbn. split; [constructor; [easy|constructor]|]. split.
    + intros j q [E|[]]. injection E as <- <-. split; [reflexivity|]. exists (PBase i). split; [now left|constructor].
    + intros q p [<-|[]] H. inversion H; subst. now left.
  - destruct IHl as (L1 & L2 & L3), IHr as (R1 & R2 & R3). cbn [pinfo]. split; [|split].
    + apply dunion_nodup, dunion_nodup. constructor; [easy|constructor].
    + intros j q H. apply dunion_in in H as [H|H]; [apply dunion_in in H as [H|H]|].
      * destruct H as [E|[]]. injection E as <- <-. split; [reflexivity|]. eexists. split; [now left|constructor].
      * destruct (L2 _ _ H) as (E & p & [<-|[]] & Hp). split; [exact E|]. eexists. split; [now left|]. now apply part_l.
      * destruct (R2 _ _ H) as (E & p & [<-|[]] & Hp). split; [exact E|]. eexists. split; [now left|]. now apply part_r.
    + intros q p [<-|[]] H. rewrite !dunion_keys. inversion H; subst.
      * left; left. now left.
      * left; right. eapply L3; [now left|assumption].
      * right. eapply R3; [now left|assumption].
  - cbn [pinfo].
    assert (G : forall d, NoDup (map fst d) ->
      NoDup (map fst (fold_left (fun d a => dunion d (pinfo a)) args d)) /\
      (forall j q, In (j, q) (fold_left (fun d a => dunion d (pinfo a)) args d) -> In (j, q) d \/ pid q = j /\ exists a, In a args /\ part q a) /\
      (forall j, In j (map fst (fold_left (fun d a => dunion d (pinfo a)) args d)) <-> In j (map fst d) \/ exists a, In a args /\ In j (map fst (pinfo a)))).
    { induction IH as [|a args (A1 & A2 & A3) IH IHargs]; intros d Hd; cbn [fold_left].
      - split; [exact Hd|]. split; [tauto|]. intros j. split; [tauto|]. intros [X|(a & [] & _)]; exact X.
      - destruct (IHargs (dunion d (pinfo a)) (dunion_nodup _ _ Hd)) as (B1 & B2 & B3). split; [exact B1|]. split.
        + intros j q H. apply B2 in H as [H|(E & b & Hb & Hq)].
          * apply dunion_in in H as [H|H]; [now left|]. right. destruct (A2 _ _ H) as (E & p & [<-|[]] & Hp).
            split; [exact E|]. exists a. split; [now left|exact Hp].
          * right. split; [exact E|]. exists b. split; [now right|exact Hq].
        + intros j. rewrite B3, dunion_keys. split.
          * intros [[X|X]|(b & Hb & X)]; [now left|right; exists a; split; [now left|exact X]|right; exists b; split; [now right|exact X]].
          * intros [X|(b & [<-|Hb] & X)]; [tauto|tauto|]. right. now exists b. }
    destruct (G [(i, PFun i f args)]) as (G1 & G2 & G3); [constructor; [easy|constructor]|]. split; [exact G1|]. split.
    + intros j q H. apply G2 in H as [[E|[]]|(E & a & Ha & Hq)].
      * injection E as <- <-. split; [reflexivity|]. eexists. split; [now left|constructor].
      * split; [exact E|]. eexists. split; [now left|]. now apply part_a with a.
    + intros q p [<-|[]] H. apply G3. inversion H; subst; [left; now left|]. right. exists a. split; [assumption|].
      rewrite Forall_forall in IH. destruct (IH a H2) as (_ & _ & A3). eapply A3; [now left|assumption].
Qed.
Lemma params_info_ok ps : info_ok ps (fold_left (fun d p => dunion d (pinfo p)) ps []).
Proof.
  assert (G : forall d, NoDup (map fst d) ->
      NoDup (map fst (fold_left (fun d a => dunion d (pinfo a)) ps d)) /\
      (forall j q, In (j, q) (fold_left (fun d a => dunion d (pinfo a)) ps d) -> In (j, q) d \/ pid q = j /\ exists a, In a ps /\ part q a) /\
      (forall j, In j (map fst (fold_left (fun d a => dunion d (pinfo a)) ps d)) <-> In j (map fst d) \/ exists a, In a ps /\ In j (map fst (pinfo a)))).
  { induction ps as [|a ps IHps]; intros d Hd; cbn [fold_left].
    - split; [exact Hd|]. split; [tauto|]. intros j. split; [tauto|]. intros [X|(a & [] & _)]; exact X.
    - destruct (pinfo_ok a) as (A1 & A2 & A3). destruct (IHps (dunion d (pinfo a)) (dunion_nodup _ _ Hd)) as (B1 & B2 & B3). split; [exact B1|]. split.
      + intros j q H. apply B2 in H as [H|(E & b & Hb & Hq)].
        * apply dunion_in in H as [H|H]; [now left|]. right. destruct (A2 _ _ H) as (E & p & [<-|[]] & Hp).
          split; [exact E|]. exists a. split; [now left|exact Hp].
        * right. split; [exact E|]. exists b. split; [now right|exact Hq].
      + intros j. rewrite B3, dunion_keys. split.
        * intros [[X|X]|(b & Hb & X)]; [now left|right; exists a; split; [now left|exact X]|right; exists b; split; [now right|exact X]].
        * intros [X|(b & [<-|Hb] & X)]; [tauto|tauto|]. right. now exists b. }
  destruct (G []) as (G1 & G2 & G3); [constructor|]. split; [exact G1|]. split.
  - intros j q H. apply G2 in H as [[]|H]. exact H.
  - intros q p Hp H. apply G3. right. exists p. split; [exact Hp|]. destruct (pinfo_ok p) as (_ & _ & A3). eapply A3; [now left|exact H].
Qed.

(** ** trackers *)
(** objects with one identity are one object *)
Definition coherent (ps : list param) : Prop :=
  forall p q a b, In p ps -> In q ps -> part a p -> part b q -> pid a = pid b -> a = b.
(** every parameter handed to an assignment *)
Definition ops_params (ops : list hop) : list param := flat_map (fun o => match o with HAssign _ p => [p] | HDrop _ => [] end) ops.
(** no component is created at the address of a dropped one *)
Fixpoint no_reuse (dead : list nat) (ops : list hop) : Prop :=
  match ops with
  | [] => True
  | HAssign s _ :: r => ~ In (fst s) dead /\ no_reuse dead r
  | HDrop c :: r => no_reuse (c :: dead) r
  end.
Record hinv (ps : list param) (dead : list nat) (h : heap) : Prop := {
  hi_fwd : forall s p, h_slot h s = Some p -> In s (h_trk h (pid p));
  hi_bwd : forall s i, In s (h_trk h i) -> ~ In (fst s) dead -> exists p, h_slot h s = Some p /\ pid p = i;
  hi_nd : forall i, NoDup (h_trk h i);
  hi_live : forall s p, h_slot h s = Some p -> ~ In (fst s) dead;
  hi_ps : forall s p, h_slot h s = Some p -> In p ps }.

Lemma trk_remove_ok l s : In s l -> NoDup l -> exists l', trk_remove l s = Ok l' /\ NoDup l' /\ forall x, In x l' <-> In x l /\ x <> s.
Proof.
  induction l as [|x l IH]; intros Hin Hnd; [easy|]. inversion Hnd as [|? ? N1 N2]; subst. cbn [trk_remove].
  destruct (slot_eqb_spec s x) as [->|N].
  - exists l. split; [reflexivity|]. split; [exact N2|]. intros y. cbn [In]. split; [|intros [[E|E] Hy]; congruence].
    intros Hy. split; [now right|]. intros ->. contradiction.
  - destruct Hin as [E|Hin]; [congruence|]. destruct (IH Hin N2) as (l' & E & N3 & X). rewrite E. cbn [bind].
    exists (x :: l'). split; [reflexivity|]. split.
    + constructor; [|exact N3]. rewrite X. tauto.
    + intros y. cbn [In]. rewrite X. split; [intros [<-|[A B]]; split; auto|]. intros [[<-|A] B]; auto.
Qed.
Lemma trk_append_spec l s : NoDup l -> NoDup (trk_append l s) /\ forall x, In x (trk_append l s) <-> In x l \/ x = s.
Proof.
  intros H. unfold trk_append. destruct (existsb (slot_eqb s) l) eqn:E.
  - split; [exact H|]. intros x. split; [tauto|]. intros [X| ->]; [exact X|].
    apply existsb_exists in E as (y & Hy & E). now destruct (slot_eqb_spec s y) as [->|].
  - assert (N : ~ In s l). { intros Hs. assert (existsb (slot_eqb s) l = true) by (apply existsb_exists; exists s; split; [exact Hs|apply slot_eqb_refl]). congruence. }
    split.
    + apply NoDup_app_disj; [exact H|constructor; [easy|constructor]|]. intros x Hx [<-|[]]. contradiction.
    + intros x. rewrite in_app_iff. cbn [In]. intuition congruence.
Qed.
Lemma upd_eq {A B} eqb (f : A -> B) a b : eqb a a = true -> upd eqb f a b a = b.
Proof. unfold upd. now intros ->. Qed.

Lemma assign_inv ps dead h s p : coherent ps -> hinv ps dead h -> In p ps -> ~ In (fst s) dead ->
  exists h', assign h s p = Ok h' /\ hinv ps dead h' /\ h_slot h' s = Some p /\ forall s', s' <> s -> h_slot h' s' = h_slot h s'.
Proof.
  intros Co [Hf Hb Hn Hl Hp] Hin Hs. unfold assign. destruct (h_slot h s) as [q|] eqn:Eq.
  - destruct (Nat.eqb_spec (pid q) (pid p)) as [E|N].
    + assert (q = p) by (apply (Co q p q p); auto; [now apply (Hp s)|constructor|constructor]). subst q.
      exists h. split; [reflexivity|]. split; [constructor; assumption|]. split; [exact Eq|reflexivity].
    + destruct (trk_remove_ok (h_trk h (pid q)) s) as (l & El & Nl & Xl); [now apply Hf|apply Hn|]. rewrite El. cbn [bind].
      set (trk := upd Nat.eqb (h_trk h) (pid q) l).
      assert (Tq : trk (pid q) = l) by (unfold trk; apply upd_eq, Nat.eqb_refl).
      assert (To : forall i, i <> pid q -> trk i = h_trk h i).
      { intros i Hi. unfold trk, upd. destruct (Nat.eqb_spec (pid q) i); congruence. }
      assert (Tn : forall i, NoDup (trk i)).
      { intros i. destruct (Nat.eq_dec i (pid q)) as [->|Hi]; [now rewrite Tq|rewrite To by exact Hi; apply Hn]. }
      assert (Ts : forall i x, In x (trk i) <-> In x (h_trk h i) /\ ~ (i = pid q /\ x = s)).
      { intros i x. destruct (Nat.eq_dec i (pid q)) as [->|Hi]; [rewrite Tq, Xl; tauto|rewrite To by exact Hi; tauto]. }
      destruct (trk_append_spec (trk (pid p)) s (Tn _)) as (An & Asp).
      assert (Tf : forall i x, In x (upd Nat.eqb trk (pid p) (trk_append (trk (pid p)) s) i) <-> In x (trk i) \/ (i = pid p /\ x = s)).
      { intros i x. unfold upd. destruct (Nat.eqb_spec (pid p) i) as [<-|Hi]; [rewrite Asp; tauto|]. intuition congruence. }
      eexists. split; [reflexivity|]. cbn [h_slot h_trk]. split; [|split].
      * constructor; cbn [h_slot h_trk].
        -- intros x r E. rewrite Tf, Ts. unfold upd in E. destruct (slot_eqb_spec s x) as [<-|Hx].
           ++ injection E as <-. right. auto.
           ++ left. split; [now apply Hf|]. intros [_ X]. congruence.
        -- intros x i E Hd. rewrite Tf, Ts in E. unfold upd. destruct (slot_eqb_spec s x) as [<-|Hx].
           ++ destruct E as [(E & X)|(-> & _)]; [|eauto]. destruct (Hb _ _ E Hd) as (r & Er & <-).
              assert (r = q) by congruence. subst r. exfalso. apply X. auto.
           ++ destruct E as [(E & X)|(_ & X)]; [|congruence]. now apply Hb.
        -- intros i. unfold upd. destruct (Nat.eqb (pid p) i); [exact An|apply Tn].
        -- intros x r E. unfold upd in E. destruct (slot_eqb_spec s x) as [<-|Hx]; [exact Hs|now apply (Hl x r)].
        -- intros x r E. unfold upd in E. destruct (slot_eqb_spec s x) as [<-|Hx]; [congruence|now apply (Hp x)].
      * apply upd_eq, slot_eqb_refl.
      * intros x Hx. unfold upd. destruct (slot_eqb_spec s x); congruence.
  - destruct (trk_append_spec (h_trk h (pid p)) s (Hn _)) as (An & Asp).
    assert (Tf : forall i x, In x (upd Nat.eqb (h_trk h) (pid p) (trk_append (h_trk h (pid p)) s) i) <-> In x (h_trk h i) \/ (i = pid p /\ x = s)).
    { intros i x. unfold upd. destruct (Nat.eqb_spec (pid p) i) as [<-|Hi]; [rewrite Asp; tauto|]. intuition congruence. }
    eexists. split; [reflexivity|]. cbn [h_slot h_trk]. split; [|split].
    + constructor; cbn [h_slot h_trk].
      * intros x r E. rewrite Tf. unfold upd in E. destruct (slot_eqb_spec s x) as [<-|Hx]; [injection E as <-; auto|left; now apply Hf].
      * intros x i E Hd. rewrite Tf in E. unfold upd. destruct (slot_eqb_spec s x) as [<-|Hx].
        -- destruct E as [E|(-> & _)]; [|eauto]. destruct (Hb _ _ E Hd) as (r & Er & _). congruence.
        -- destruct E as [E|(_ & X)]; [|congruence]. now apply Hb.
      * intros i. unfold upd. destruct (Nat.eqb (pid p) i); [exact An|apply Hn].
      * intros x r E. unfold upd in E. destruct (slot_eqb_spec s x) as [<-|Hx]; [exact Hs|now apply (Hl x r)].
      * intros x r E. unfold upd in E. destruct (slot_eqb_spec s x) as [<-|Hx]; [congruence|now apply (Hp x)].
    + apply upd_eq, slot_eqb_refl.
    + intros x Hx. unfold upd. destruct (slot_eqb_spec s x); congruence.
Qed.
Lemma hrun_inv ps ops : forall dead h, coherent ps -> hinv ps dead h -> incl (ops_params ops) ps -> no_reuse dead ops ->
  exists h' dead', hrun h ops = Ok h' /\ hinv ps dead' h' /\ forall c, In c dead' -> In c dead \/ In (HDrop c) ops.
Proof.
  induction ops as [|[s p|c] ops IH]; intros dead h Co Hh Hps Hr; cbn [hrun hstep].
  - exists h, dead. auto.
  - destruct Hr as (Hs & Hr). destruct (assign_inv ps dead h s p Co Hh) as (h1 & E & H1 & _); [apply Hps; now left|exact Hs|].
    rewrite E. cbn [bind]. destruct (IH dead h1) as (h' & d' & E1 & E2 & E3); auto; [intros x Hx; apply Hps; now right|].
    exists h', d'. split; [exact E1|]. split; [exact E2|]. intros c Hc. destruct (E3 c Hc); [now left|right; now right].
  - cbn [bind]. destruct (IH (c :: dead) {| h_slot := fun s => if Nat.eqb c (fst s) then None else h_slot h s; h_trk := h_trk h |}) as (h' & d' & E1 & E2 & E3); auto.
    + destruct Hh as [Hf Hb Hn Hl Hp].
      constructor; cbn [h_slot h_trk]; auto.
      * intros s p E. destruct (Nat.eqb_spec c (fst s)); [discriminate|auto].
      * intros s i Hs Hd. cbn [In] in Hd. destruct (Hb s i Hs) as (p & E1 & E2); [tauto|]. exists p.
        destruct (Nat.eqb_spec c (fst s)); [tauto|auto].
      * intros s p E. destruct (Nat.eqb_spec c (fst s)); [discriminate|]. intros [X|X]; [congruence|]. exact (Hl s p E X).
      * intros s p E. destruct (Nat.eqb_spec c (fst s)); [discriminate|eauto].
    + exists h', d'. split; [exact E1|]. split; [exact E2|]. intros x Hx. destruct (E3 x Hx) as [[<-|K]|K]; [right; now left|now left|right; now right].
Qed.
Lemma hempty_inv ps : hinv ps [] hempty.
Proof. constructor; cbn; try easy. intros; constructor. Qed.

(** only assigned slots hold something *)
Lemma hrun_assigned ops : forall h h' s p, hrun h ops = Ok h' -> h_slot h' s = Some p ->
  h_slot h s <> None \/ exists q, In (HAssign s q) ops.
Proof.
  induction ops as [|o ops IH]; intros h h' s p E Es; cbn [hrun] in E; [injection E as ->; left; congruence|].
  destruct (hstep h o) as [h1|] eqn:E1; [|discriminate]. cbn [bind] in E. destruct (IH h1 h' s p E Es) as [N|(q & Hq)]; [|right; exists q; now right].
  destruct o as [s1 q|c]; cbn [hstep] in E1.
  - destruct (slot_eqb_spec s1 s) as [->|Ns]; [right; exists q; now left|]. left. intros N0. apply N.
    assert (U : forall b, upd slot_eqb (h_slot h) s1 b s = None) by (intros b; unfold upd; destruct (slot_eqb_spec s1 s); congruence).
    unfold assign in E1. destruct (h_slot h s1) as [q0|].
    + destruct (Nat.eqb (pid q0) (pid q)); [injection E1 as <-; exact N0|]. destruct (trk_remove _ _); [|discriminate]. cbn [bind] in E1. injection E1 as <-. apply U.
    + injection E1 as <-. apply U.
  - injection E1 as <-. cbn [h_slot] in N. left. destruct (Nat.eqb c (fst s)); [congruence|exact N].
Qed.
