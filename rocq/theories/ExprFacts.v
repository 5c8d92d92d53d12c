From Verif Require Import Base Expr.

(** ** more fuel never changes a result *)
Lemma fuel_step n :
  (forall ts r, pE n ts = Some r -> pE (S n) ts = Some r) /\
  (forall a ts r, loopE n a ts = Some r -> loopE (S n) a ts = Some r) /\
  (forall ts r, pT n ts = Some r -> pT (S n) ts = Some r) /\
  (forall a ts r, loopT n a ts = Some r -> loopT (S n) a ts = Some r) /\
  (forall ts r, pF n ts = Some r -> pF (S n) ts = Some r) /\
  (forall ts r, pA n ts = Some r -> pA (S n) ts = Some r) /\
  (forall ts r, pArgs n ts = Some r -> pArgs (S n) ts = Some r).
Proof.
  induction n as [|n (IE & ILE & IT & ILT & IF & IA & IG)].
  { repeat split; intros; discriminate. }
  repeat split.
  - intros ts r H. cbn [pE] in H. destruct (pT n ts) as [[a r']|] eqn:E; [|discriminate].
    change (match pT (S n) ts with Some (a, r) => loopE (S n) a r | None => None end = Some r).
    rewrite (IT _ _ E). auto.
  - intros a ts r H.
    destruct ts as [|t ts]; [exact H|]. destruct t; try exact H;
    cbn [loopE] in H; (destruct (pT n ts) as [[b r']|] eqn:E; [|discriminate]);
    change (match pT (S n) ts with Some (b, r') => loopE (S n) (EBin _ a b) r' | None => None end = Some r) ||
    idtac.
    + change (match pT (S n) ts with Some (b, r') => loopE (S n) (EBin Add a b) r' | None => None end = Some r).
      rewrite (IT _ _ E). auto.
    + change (match pT (S n) ts with Some (b, r') => loopE (S n) (EBin Sub a b) r' | None => None end = Some r).
      rewrite (IT _ _ E). auto.
  - intros ts r H. cbn [pT] in H. destruct (pF n ts) as [[a r']|] eqn:E; [|discriminate].
    change (match pF (S n) ts with Some (a, r) => loopT (S n) a r | None => None end = Some r).
    rewrite (IF _ _ E). auto.
  - intros a ts r H.
    destruct ts as [|t ts]; [exact H|]. destruct t; try exact H;
    cbn [loopT] in H; (destruct (pF n ts) as [[b r']|] eqn:E; [|discriminate]).
    + change (match pF (S n) ts with Some (b, r') => loopT (S n) (EBin Mul a b) r' | None => None end = Some r).
      rewrite (IF _ _ E). auto.
    + change (match pF (S n) ts with Some (b, r') => loopT (S n) (EBin Div a b) r' | None => None end = Some r).
      rewrite (IF _ _ E). auto.
  - intros ts r H. cbn [pF] in H. destruct (pA n ts) as [[a r']|] eqn:E; [|discriminate].
    change (match pA (S n) ts with
    | Some (a, TPow :: r) => match pF (S n) r with Some (b, r') => Some (EBin Pow a b, r') | None => None end
    | other => other
    end = Some r). rewrite (IA _ _ E).
    destruct r' as [|t r']; [exact H|]. destruct t; try exact H.
    destruct (pF n r') as [[b r'']|] eqn:E2; [|discriminate]. rewrite (IF _ _ E2). exact H.
  - intros ts r H.
    destruct ts as [|t ts]; [exact H|]. destruct t; try exact H; cbn [pA] in H.
    + destruct ts as [|t ts]; [exact H|]. destruct t; try exact H.
      assert (G : match pArgs n ts with Some (l, r') => Some (ECall s l, r') | None => None end = Some r ->
        match pArgs (S n) ts with Some (l, r') => Some (ECall s l, r') | None => None end = Some r).
      { intros G. destruct (pArgs n ts) as [[l r']|] eqn:E; [|discriminate]. rewrite (IG _ _ E). exact G. }
      destruct ts as [|t ts]; [apply G; exact H|]. destruct t; try (apply G; exact H). exact H.
    + destruct (pE n ts) as [[a r']|] eqn:E; [|discriminate].
      change (match pE (S n) ts with Some (a, TR :: r') => Some (a, r') | _ => None end = Some r).
      rewrite (IE _ _ E). exact H.
  - intros ts r H. cbn [pArgs] in H. destruct (pE n ts) as [[a r']|] eqn:E; [|discriminate].
    change (match pE (S n) ts with
    | Some (a, TR :: r) => Some ([a], r)
    | Some (a, TComma :: r) => match pArgs (S n) r with Some (l, r') => Some (a :: l, r') | None => None end
    | _ => None end = Some r). rewrite (IE _ _ E).
    destruct r' as [|t r']; [exact H|]. destruct t; try exact H.
    destruct (pArgs n r') as [[l r'']|] eqn:E2; [|discriminate]. rewrite (IG _ _ E2). exact H.
Qed.

Lemma fuel_mono {A} (f : nat -> option A) : (forall n r, f n = Some r -> f (S n) = Some r) ->
  forall n m r, n <= m -> f n = Some r -> f m = Some r.
Proof. intros H n m r L. induction L; auto. Qed.

(** ** reading is deterministic *)
Lemma reads_det ts e1 e2 : reads ts e1 -> reads ts e2 -> e1 = e2.
Proof.
  intros [n H] [m K].
  assert (M := fuel_mono (fun n => pE n ts) (fun n => proj1 (fuel_step n) ts)).
  pose proof (M n (n + m) _ ltac:(lia) H). pose proof (M m (n + m) _ ltac:(lia) K). congruence.
Qed.

(** eventually (for all large fuels) *)
Definition evt {A} (f : nat -> option A) (r : A) : Prop := exists N, forall n, N <= n -> f n = Some r.

Lemma evt_S {A} (f g : nat -> option A) r : (forall n, f (S n) = g n) -> evt g r -> evt f r.
Proof. intros H [N E]. exists (S N). intros [|n] L; [lia|]. rewrite H. apply E. lia. Qed.
Lemma evt_bind {A B} (f : nat -> option A) (k : nat -> A -> option B) a r :
  evt f a -> evt (fun n => k n a) r -> evt (fun n => match f n with Some a => k n a | None => None end) r.
Proof.
  intros [N1 E1] [N2 E2]. exists (N1 + N2). intros n L. rewrite E1 by lia. apply E2. lia.
Qed.
Lemma evt_ret {A} (r : A) : evt (fun _ => Some r) r.
Proof. now exists 0. Qed.

(** what may follow an expression / a term *)
Definition okT (rest : list tok) : Prop := match rest with TPow :: _ => False | _ => True end.
Definition okE (rest : list tok) : Prop :=
  match rest with [] | TAdd :: _ | TSub :: _ | TR :: _ | TComma :: _ => True | _ => False end.

Section Den.
Context {V : Type} (A : alg V) (L : laws A) (env : string -> V).
Notation ev := (eval A env).

(** [ts] is a complete atom / factor of value [v] *)
Definition denA (ts : list tok) (v : V) : Prop :=
  exists e, ev e = v /\ forall rest, evt (fun n => pA n (ts ++ rest)) (e, rest).
Definition denF (ts : list tok) (v : V) : Prop :=
  exists e, ev e = v /\ forall rest, okT rest -> evt (fun n => pF n (ts ++ rest)) (e, rest).
(** [ts] can be read as a term of value [v], also as right operand of a product *)
Definition denT (ts : list tok) (v : V) : Prop :=
  (exists e, ev e = v /\ forall rest r, okT rest ->
     evt (fun n => loopT n e rest) r -> evt (fun n => pT n (ts ++ rest)) r) /\
  (forall acc, exists e, ev e = op2 A Mul (ev acc) v /\ forall rest r, okT rest ->
     evt (fun n => loopT n e rest) r -> evt (fun n => loopT n acc (TMul :: ts ++ rest)) r).
Definition denE (ts : list tok) (v : V) : Prop :=
  (exists e, ev e = v /\ forall rest r, okE rest ->
     evt (fun n => loopE n e rest) r -> evt (fun n => pE n (ts ++ rest)) r) /\
  (forall acc, exists e, ev e = op2 A Add (ev acc) v /\ forall rest r, okE rest ->
     evt (fun n => loopE n e rest) r -> evt (fun n => loopE n acc (TAdd :: ts ++ rest)) r).

Lemma okE_T rest : okE rest -> okT rest.
Proof. destruct rest as [|t r]; [auto|]. destruct t; cbn; tauto. Qed.
Lemma loopT_stop e rest : okE rest -> evt (fun n => loopT n e rest) (e, rest).
Proof.
  intros H. exists 1. intros [|n] Hn; [lia|]. destruct rest as [|t r]; [reflexivity|].
  destruct t; cbn in H |- *; tauto.
Qed.
Definition stopE (rest : list tok) : Prop := match rest with [] | TR :: _ | TComma :: _ => True | _ => False end.
Lemma loopE_stop e rest : stopE rest -> evt (fun n => loopE n e rest) (e, rest).
Proof.
  intros H. exists 1. intros [|n] Hn; [lia|]. destruct rest as [|t r]; [reflexivity|].
  destruct t; cbn in H |- *; tauto.
Qed.

Lemma denA_name s : denA [TName s] (env s).
Proof.
  exists (EVar s). split; [reflexivity|]. intros rest.
  eapply evt_S with (g := fun _ => Some (EVar s, rest)); [reflexivity|apply evt_ret].
Qed.

Lemma denF_A ts v : denA ts v -> denF ts v.
Proof.
  intros (e & He & H). exists e. split; [exact He|]. intros rest OK.
  eapply evt_S with (g := fun n => match pA n (ts ++ rest) with Some (a, r) =>
     match r with TPow :: r0 => match pF n r0 with Some (b, r') => Some (EBin Pow a b, r') | None => None end
     | _ => Some (a, r) end | None => None end).
  { intros n. cbn [pF]. destruct (pA n (ts ++ rest)) as [[a r]|]; [|reflexivity].
    destruct r as [|[] r]; reflexivity. }
  destruct (H rest) as [N E]. exists N. intros n Hn. rewrite (E n Hn).
  destruct rest as [|[] r]; cbn in OK; tauto.
Qed.

Lemma denF_pow a x b y : denA a x -> denA b y -> denF (a ++ TPow :: b) (op2 A Pow x y).
Proof.
  intros (e & <- & H) Hb. apply denF_A in Hb. destruct Hb as (f & <- & K).
  exists (EBin Pow e f). split; [reflexivity|]. intros rest OK. rewrite <- app_assoc. cbn [List.app].
  destruct (H (TPow :: b ++ rest)) as [N E]. destruct (K rest OK) as [M F].
  exists (S (N + M)). intros [|n] Hn; [lia|]. cbn [pF]. rewrite (E n) by lia. rewrite (F n) by lia. reflexivity.
Qed.

Lemma denT_F ts v : denF ts v -> denT ts v.
Proof.
  intros (e & <- & H). split.
  - exists e. split; [reflexivity|]. intros rest r OK K.
    destruct (H rest OK) as [N E]. destruct K as [M F].
    exists (S (N + M)). intros [|n] Hn; [lia|]. cbn [pT]. rewrite (E n) by lia. apply F. lia.
  - intros acc. exists (EBin Mul acc e). split; [reflexivity|]. intros rest r OK K.
    destruct (H rest OK) as [N E]. destruct K as [M F].
    exists (S (N + M)). intros [|n] Hn; [lia|]. cbn [loopT]. rewrite (E n) by lia. apply F. lia.
Qed.

Lemma denT_mul a x b y : denT a x -> denT b y -> denT (a ++ TMul :: b) (op2 A Mul x y).
Proof.
  intros [(e & <- & H1) H2] [_ K2]. split.
  - destruct (K2 e) as (f & Hf & G). exists f. split; [exact Hf|]. intros rest r OK R.
    rewrite <- app_assoc. cbn [List.app]. apply H1; [exact I|]. apply G; auto.
  - intros acc. destruct (H2 acc) as (e' & He & G). destruct (K2 e') as (f & Hf & G').
    exists f. split.
    + rewrite Hf, He. symmetry. apply (law_mulmul _ L).
    + intros rest r OK R. rewrite <- app_assoc. cbn [List.app]. apply G; [exact I|]. apply G'; auto.
Qed.

Lemma denT_div a x b y : denT a x -> denF b y -> denT (a ++ TDiv :: b) (op2 A Div x y).
Proof.
  intros [(e & <- & H1) H2] (f & <- & K).
  assert (Step : forall acc rest r, okT rest -> evt (fun n => loopT n (EBin Div acc f) rest) r ->
     evt (fun n => loopT n acc (TDiv :: b ++ rest)) r).
  { intros acc rest r OK [M F]. destruct (K rest OK) as [N E].
    exists (S (N + M)). intros [|n] Hn; [lia|]. cbn [loopT]. rewrite (E n) by lia. apply F. lia. }
  split.
  - exists (EBin Div e f). split; [reflexivity|]. intros rest r OK R.
    rewrite <- app_assoc. cbn [List.app]. apply H1; [exact I|]. apply Step; auto.
  - intros acc. destruct (H2 acc) as (e' & He & G). exists (EBin Div e' f). split.
    + cbn [eval]. rewrite He. symmetry. apply (law_muldiv _ L).
    + intros rest r OK R. rewrite <- app_assoc. cbn [List.app]. apply G; [exact I|]. apply Step; auto.
Qed.

Lemma denE_T ts v : denT ts v -> denE ts v.
Proof.
  intros [(e & <- & H) _]. 
  assert (HT : forall rest, okE rest -> evt (fun n => pT n (ts ++ rest)) (e, rest)).
  { intros rest OK. apply H; [now apply okE_T|now apply loopT_stop]. }
  split.
  - exists e. split; [reflexivity|]. intros rest r OK [M F]. destruct (HT rest OK) as [N E].
    exists (S (N + M)). intros [|n] Hn; [lia|]. cbn [pE]. rewrite (E n) by lia. apply F. lia.
  - intros acc. exists (EBin Add acc e). split; [reflexivity|]. intros rest r OK [M F]. destruct (HT rest OK) as [N E].
    exists (S (N + M)). intros [|n] Hn; [lia|]. cbn [loopE]. rewrite (E n) by lia. apply F. lia.
Qed.

Lemma denE_add a x b y : denE a x -> denE b y -> denE (a ++ TAdd :: b) (op2 A Add x y).
Proof.
  intros [(e & <- & H1) H2] [_ K2]. split.
  - destruct (K2 e) as (f & Hf & G). exists f. split; [exact Hf|]. intros rest r OK R.
    rewrite <- app_assoc. cbn [List.app]. apply H1; [exact I|]. apply G; auto.
  - intros acc. destruct (H2 acc) as (e' & He & G). destruct (K2 e') as (f & Hf & G').
    exists f. split.
    + rewrite Hf, He. symmetry. apply (law_addadd _ L).
    + intros rest r OK R. rewrite <- app_assoc. cbn [List.app]. apply G; [exact I|]. apply G'; auto.
Qed.

Lemma denE_sub a x b y : denE a x -> denT b y -> denE (a ++ TSub :: b) (op2 A Sub x y).
Proof.
  intros [(e & <- & H1) H2] [(f & <- & K) _].
  assert (HT : forall rest, okE rest -> evt (fun n => pT n (b ++ rest)) (f, rest)).
  { intros rest OK. apply K; [now apply okE_T|now apply loopT_stop]. }
  assert (Step : forall acc rest r, okE rest -> evt (fun n => loopE n (EBin Sub acc f) rest) r ->
     evt (fun n => loopE n acc (TSub :: b ++ rest)) r).
  { intros acc rest r OK [M F]. destruct (HT rest OK) as [N E].
    exists (S (N + M)). intros [|n] Hn; [lia|]. cbn [loopE]. rewrite (E n) by lia. apply F. lia. }
  split.
  - exists (EBin Sub e f). split; [reflexivity|]. intros rest r OK R.
    rewrite <- app_assoc. cbn [List.app]. apply H1; [exact I|]. apply Step; auto.
  - intros acc. destruct (H2 acc) as (e' & He & G). exists (EBin Sub e' f). split.
    + cbn [eval]. rewrite He. symmetry. apply (law_addsub _ L).
    + intros rest r OK R. rewrite <- app_assoc. cbn [List.app]. apply G; [exact I|]. apply Step; auto.
Qed.

Lemma denE_whole ts v : denE ts v -> exists e, ev e = v /\ forall rest, stopE rest ->
  evt (fun n => pE n (ts ++ rest)) (e, rest).
Proof.
  intros [(e & He & H) _]. exists e. split; [exact He|]. intros rest OK. apply H.
  - destruct rest as [|[] r]; cbn in OK |- *; tauto.
  - now apply loopE_stop.
Qed.

Lemma denA_paren ts v : denE ts v -> denA (TL :: ts ++ [TR]) v.
Proof.
  intros H. apply denE_whole in H. destruct H as (e & He & H). exists e. split; [exact He|]. intros rest.
  destruct (H (TR :: rest) I) as [N E].
  exists (S N). intros [|n] Hn; [lia|].
  replace ((TL :: ts ++ [TR]) ++ rest) with (TL :: ts ++ TR :: rest) by (cbn; now rewrite <- app_assoc).
  cbn [pA]. rewrite (E n) by lia. reflexivity.
Qed.

Fixpoint commas (l : list (list tok)) : list tok :=
  match l with [] => [] | [x] => x | x :: r => x ++ TComma :: commas r end.

Lemma hd_not_TR ts v : denE ts v -> forall t r, ts <> TR :: r /\ (ts = t :: r -> t <> TR).
Proof.
  intros H. apply denE_whole in H. destruct H as (e & _ & H). specialize (H [] I). rewrite app_nil_r in H.
  destruct H as [N E]. specialize (E (S (S (S (S N)))) ltac:(lia)).
  assert (G : forall r, ts <> TR :: r).
  { intros r ->. cbn in E. discriminate. }
  intros t r. split; [apply G|]. intros -> ->. now apply (G r).
Qed.
Lemma den_nonempty v : ~ denE [] v.
Proof.
  intros H. apply denE_whole in H. destruct H as (e & _ & H). destruct (H [] I) as [N E].
  specialize (E (S (S (S (S N)))) ltac:(lia)). cbn in E. discriminate.
Qed.

Lemma denA_call f l vs : Forall2 denE l vs -> denA (TFun f :: TL :: commas l ++ [TR]) (app A f vs).
Proof.
  intros H.
  assert (G : l <> [] -> exists es, map ev es = vs /\ forall rest, evt (fun n => pArgs n (commas l ++ TR :: rest)) (es, rest)).
  { induction H as [|ts v l vs Hd Hr IH]; [congruence|]. intros _.
    pose proof (denE_whole _ _ Hd) as (e & He & He').
    destruct l as [|ts2 l].
    - inversion Hr; subst. exists [e]. split; [reflexivity|]. intros rest. cbn [commas].
      destruct (He' (TR :: rest) I) as [N E]. exists (S N). intros [|n] Hn; [lia|].
      cbn [pArgs]. rewrite (E n) by lia. reflexivity.
    - destruct IH as (es & Hes & IH); [congruence|]. exists (e :: es). split; [cbn; congruence|].
      intros rest. destruct (He' (TComma :: commas (ts2 :: l) ++ TR :: rest) I) as [N E].
      destruct (IH rest) as [M F]. exists (S (N + M)). intros [|n] Hn; [lia|].
      change (commas (ts :: ts2 :: l)) with (ts ++ TComma :: commas (ts2 :: l)).
      rewrite <- app_assoc. change ((TComma :: commas (ts2 :: l)) ++ TR :: rest) with (TComma :: (commas (ts2 :: l) ++ TR :: rest)).
      cbn [pArgs]. rewrite (E n) by lia. rewrite (F n) by lia. reflexivity. }
  destruct l as [|ts l].
  - inversion H; subst. exists (ECall f []). split; [reflexivity|]. intros rest. exists 1. intros [|n] Hn; [lia|]. reflexivity.
  - destruct G as (es & <- & G); [congruence|]. exists (ECall f es). split; [reflexivity|]. intros rest.
    destruct (G rest) as [N E]. exists (S N). intros [|n] Hn; [lia|].
    replace ((TFun f :: TL :: commas (ts :: l) ++ [TR]) ++ rest) with (TFun f :: TL :: (commas (ts :: l) ++ TR :: rest))
      by (cbn [List.app]; now rewrite <- app_assoc).
    specialize (E n ltac:(lia)).
    assert (HX : exists t q, commas (ts :: l) ++ TR :: rest = t :: q /\ t <> TR).
    { inversion H as [|? v ? ? Hd Hr]; subst. destruct ts as [|t ts].
      - destruct (den_nonempty _ Hd).
      - exists t. destruct l; [exists (ts ++ TR :: rest)|exists ((ts ++ TComma :: commas (l :: l0)) ++ TR :: rest)];
        (split; [reflexivity|]); now apply (hd_not_TR _ _ Hd t ts). }
    destruct HX as (t & q & Hq & Ht). rewrite Hq in *. cbn [pA].
    destruct t; try congruence; rewrite E; reflexivity.
Qed.

Lemma den_reads ts v : denE ts v -> exists e, reads ts e /\ ev e = v.
Proof.
  intros H. apply denE_whole in H. destruct H as (e & He & H). exists e. split; [|exact He].
  destruct (H [] I) as [N E]. exists N. specialize (E N ltac:(lia)). now rewrite app_nil_r in E.
Qed.
End Den.
