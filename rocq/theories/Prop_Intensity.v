(** C85: flux, luminosity and isotropic energy. *)
From Coq Require Import Ascii String.
From Verif Require Import RBase Data Namespace NamespaceProofs FitInput HelperData ModelInfo ModelAlg Batch BatchProofs HelperDataProofs CompileProofs Results Summary SummaryProofs SimulateProofs Prop_Summary Prop_Profile Intensity.
From Coq Require Import List Lia Lra FunctionalExtensionality.
Open Scope list_scope.
Open Scope R_scope.

(** ** specification *)
(** [S] is the spectrum reported under the name [c] for the model [m] *)
Definition component (comps : bool) (m : cmodel) (c : str) (S : dict R -> spectrum) : Prop :=
  if comps then In (c, S) (m_parts m) else c = [] /\ S = m_total m.
(** data have different names, components of a model different labels, and models are compared by identity *)
Definition sound_models (models : dict cmodel) : Prop :=
  NoDup (map fst models) /\ (forall d m, In (d, m) models -> NoDup (map fst (m_parts m))) /\
  (forall d m d' m', In (d, m) models -> In (d', m') models -> m_id m = m_id m' -> m = m').
(** the text "data_label" tells which data and which label *)
Definition readable (comps : bool) (models : dict cmodel) : Prop :=
  comps = true -> forall d m d' m' c c' S S', In (d, m) models -> In (d', m') models -> In (c, S) (m_parts m) -> In (c', S') (m_parts m') ->
  d ++ s2l "_" ++ c = d' ++ s2l "_" ++ c' -> d = d' /\ c = c'.
Definition at2 {V} (t : dict (dict V)) (d c : str) : option V := match get t d with Some x => get x c | None => None end.

(** ** dictionaries *)
Lemma get_puts_func {V} k (v : V) kvs : forall d, In (k, v) kvs -> (forall w, In (k, w) kvs -> w = v) -> get (puts d kvs) k = Some v.
Proof.
  induction kvs as [|[k' w] kvs IH]; intros d Hin F; [destruct Hin|]. change (get (puts (put d k' w) kvs) k = Some v).
  destruct (in_dec str_eq_dec k (map fst kvs)) as [I|I].
  - apply in_map_iff in I as ([k2 v2] & E & I). cbn in E. subst k2. apply IH; [now rewrite <- (F v2 (or_intror I))|]. intros x Hx. apply F. now right.
  - rewrite get_puts_absent by exact I. destruct Hin as [E|Hin]; [|exfalso; apply I, in_map_iff; now exists (k, v)]. injection E as -> ->. rewrite get_put. now destruct (str_eqb_spec k k).
Qed.
Lemma puts_app {V} (l acc : dict V) : NoDup (map fst acc ++ map fst l) -> puts acc l = acc ++ l.
Proof.
  revert acc. induction l as [|[k v] l IH]; intros acc H; [cbn; now rewrite app_nil_r|]. cbn [puts fold_left fst snd]. rewrite put_fresh.
  - change (puts (acc ++ [(k, v)]) l = acc ++ (k, v) :: l). rewrite IH; [now rewrite <- app_assoc|]. rewrite map_app. cbn [map fst]. rewrite <- app_assoc. exact H.
  - apply NoDup_remove_2 in H. intros X. apply H, in_or_app. now left.
Qed.
Lemma get_map_val {V W} (h : V -> W) (d : dict V) k : get (map (fun e : str * V => (fst e, h (snd e))) d) k = option_map h (get d k).
Proof. induction d as [|[n v] d IH]; [reflexivity|]. cbn. destruct (str_eqb k n); [reflexivity|exact IH]. Qed.
Lemma puts_keys_in {V} (l d : dict V) k v : get (puts d l) k = Some v -> get d k = Some v \/ In (k, v) l.
Proof.
  revert d. induction l as [|[k' w] l IH]; intros d H; [now left|]. change (get (puts (put d k' w) l) k = Some v) in H. destruct (IH _ H) as [G|G]; [|right; now right].
  rewrite get_put in G. destruct (str_eqb_spec k k') as [->|]; [injection G as ->; right; now left|now left].
Qed.

(** ** the first data with the same model *)
Definition with_id (models : dict cmodel) (i : nat) : list str := map fst (filter (fun e : str * cmodel => (m_id (snd e) =? i)%nat) models).
Lemma with_id_app a b i : with_id (a ++ b) i = with_id a i ++ with_id b i.
Proof. unfold with_id. now rewrite filter_app, map_app. Qed.
Lemma add_data_map (pre : dict cmodel) d m (ids : list nat) : NoDup ids -> (In (m_id m) ids \/ with_id pre (m_id m) = []) ->
  exists ids', add_data (m_id m) d (map (fun i => (i, with_id pre i)) ids) = map (fun i => (i, with_id (pre ++ [(d, m)]) i)) ids' /\ NoDup ids' /\ In (m_id m) ids' /\ incl ids ids' /\ incl ids' (m_id m :: ids).
Proof.
  assert (One : forall i, with_id [(d, m)] i = if (m_id m =? i)%nat then [d] else []) by (intros i; unfold with_id; cbn; destruct (m_id m =? i)%nat; reflexivity).
  induction ids as [|i ids IH]; intros N H; cbn [map add_data].
  - exists [m_id m]. split; [cbn [map]; rewrite with_id_app, One, Nat.eqb_refl; destruct H as [[]| ->]; reflexivity|]. split; [repeat constructor; easy|]. split; [now left|]. split; intros x Hx; auto; destruct Hx.
  - inversion N as [|? ? Ni Nr]; subst. destruct (Nat.eqb_spec (m_id m) i) as [E|E].
    + exists (i :: ids). split; [|split; [exact N|split; [now left|split; intros x Hx; [exact Hx|now right]]]]. cbn [map]. rewrite with_id_app, One, <- E, Nat.eqb_refl. f_equal. apply map_ext_in. intros j Hj. rewrite with_id_app, One.
      destruct (Nat.eqb_spec (m_id m) j) as [Ej|]; [exfalso; apply Ni; rewrite <- E, Ej; exact Hj|now rewrite app_nil_r].
    + destruct (IH Nr) as (ids' & A & B & C & D & D2); [destruct H as [[H|H]|H]; [congruence|now left|now right]|].
      exists (i :: ids'). split; [cbn [map]; rewrite A, with_id_app, One; destruct (Nat.eqb_spec (m_id m) i); [easy|now rewrite app_nil_r]|].
      split; [constructor; [intros X; apply D2 in X as [X|X]; [easy|now apply Ni]|exact B]|]. split; [now right|]. split; intros x [<-|Hx]; [now left|right; now apply D|right; now left|]. apply D2 in Hx as [Hx|Hx]; [now left|right; now right].
Qed.
Lemma fold_add (models pre : dict cmodel) (ids : list nat) : NoDup ids -> (forall d m, In (d, m) pre -> In (m_id m) ids) ->
  exists ids', fold_left (fun l (e : str * cmodel) => add_data (m_id (snd e)) (fst e) l) models (map (fun i => (i, with_id pre i)) ids) = map (fun i => (i, with_id (pre ++ models) i)) ids' /\
  NoDup ids' /\ (forall d m, In (d, m) (pre ++ models) -> In (m_id m) ids').
Proof.
  revert pre ids. induction models as [|[d m] models IH]; intros pre ids N H; [exists ids; rewrite app_nil_r; auto|]. cbn [fold_left fst snd].
  destruct (add_data_map pre d m ids N) as (ids' & -> & N' & I1 & I2 & _).
  { destruct (in_dec Nat.eq_dec (m_id m) ids) as [I|I]; [now left|]. right. unfold with_id. destruct (filter _ pre) as [|[d0 m0] r] eqn:E; [reflexivity|]. exfalso. assert (X : In (d0, m0) ((d0, m0) :: r)) by now left. rewrite <- E in X. apply filter_In in X as (X & Y). apply Nat.eqb_eq in Y. cbn in Y. apply I. rewrite <- Y. eapply H. exact X. }
  destruct (IH (pre ++ [(d, m)]) ids' N') as (ids2 & A & B & C).
  { intros d0 m0 Hin. apply in_app_or in Hin as [Hin|[E|[]]]; [apply I2; eapply H; exact Hin|]. injection E as <- <-. exact I1. }
  exists ids2. rewrite A, <- app_assoc. split; [reflexivity|]. split; [exact B|]. rewrite <- app_assoc in C. exact C.
Qed.
Lemma with_id_in models i d : In d (with_id models i) <-> exists m, In (d, m) models /\ m_id m = i.
Proof.
  unfold with_id. rewrite in_map_iff. split.
  - intros ([d' m] & E & H). cbn in E. subst d'. apply filter_In in H as (H & E). apply Nat.eqb_eq in E. eauto.
  - intros (m & H & E). exists (d, m). split; [reflexivity|]. apply filter_In. split; [exact H|]. cbn. now apply Nat.eqb_eq.
Qed.
Lemma nodup_flat {A B C} (f : A -> list B) (g : B -> C) (l : list A) : NoDup l -> (forall a, In a l -> NoDup (map g (f a))) ->
  (forall a a' b b', In a l -> In a' l -> In b (f a) -> In b' (f a') -> g b = g b' -> a = a') -> NoDup (map g (flat_map f l)).
Proof.
  induction l as [|a l IH]; intros N H D; [constructor|]. cbn. rewrite map_app. inversion N as [|? ? Na Nl]; subst. apply NoDup_app_disj; [apply H; now left|apply IH; [exact Nl|intros; apply H; now right|intros; eapply D; eauto; now right]|].
  intros x Hx Hy. apply in_map_iff in Hx as (b & <- & Hb). apply in_map_iff in Hy as (b' & E & Hb'). apply in_flat_map in Hb' as (a' & Ha' & Hb'). apply Na. rewrite (D a a' b b'); auto; [now left|now right].
Qed.
(** every data name is mapped to the first data with the same model *)
Theorem C85_mapping : forall models, NoDup (map fst models) ->
  (forall d, In d (map fst (model_mapping models)) <-> In d (map fst models)) /\ NoDup (map fst (model_mapping models)) /\
  forall d m, In (d, m) models -> exists before rep m' after, get (model_mapping models) d = Some rep /\ models = before ++ (rep, m') :: after /\ m_id m' = m_id m /\
    forall d0 m0, In (d0, m0) before -> m_id m0 <> m_id m.
Proof.
  intros models N. unfold model_mapping. destruct (fold_add models [] [] (NoDup_nil _)) as (ids & E & Ni & Ci); [intros d m []|]. cbn [map app] in E, Ci. rewrite E.
  set (kvs := flat_map _ _).
  assert (Hk : forall d r, In (d, r) kvs <-> exists i, In i ids /\ In d (with_id models i) /\ r = hd [] (with_id models i)).
  { intros d r. unfold kvs. rewrite in_flat_map. split.
    - intros (v & Hv & H). apply in_map_iff in Hv as (i & <- & Hi). cbn [snd] in H. apply in_map_iff in H as (d' & E' & Hd). injection E' as -> <-. eauto.
    - intros (i & Hi & Hd & ->). exists (i, with_id models i). split; [apply in_map_iff; eauto|]. cbn [snd]. apply in_map_iff. eauto. }
  assert (Uniq : forall d i j, In d (with_id models i) -> In d (with_id models j) -> i = j).
  { intros d i j Hi Hj. apply with_id_in in Hi as (m1 & H1 & <-). apply with_id_in in Hj as (m2 & H2 & <-). pose proof (get_nodup _ _ _ N H1) as G1. pose proof (get_nodup _ _ _ N H2) as G2. congruence. }
  assert (Nk : NoDup (map fst kvs)).
  { unfold kvs. rewrite flat_map_concat_map, map_map, <- flat_map_concat_map. apply nodup_flat; [exact Ni| |].
    - intros i Hi. cbn [snd]. rewrite map_map. cbn [fst]. rewrite map_id. unfold with_id. clear - N. induction models as [|[d m] l IH]; [constructor|]. inversion N as [|? ? Nd Nl]; subst. cbn. destruct (m_id m =? i)%nat; [|now apply IH].
      cbn. constructor; [|now apply IH]. intros X. apply Nd. apply in_map_iff in X as (e & <- & He). apply filter_In in He as (He & _). now apply in_map.
    - intros i j b b' _ _ Hb Hb' Eb. cbn [snd] in *. apply in_map_iff in Hb as (d & <- & Hd). apply in_map_iff in Hb' as (d' & <- & Hd'). cbn in Eb. subst d'. eapply Uniq; eauto. }
  assert (Pk : puts [] kvs = kvs) by (apply (puts_app kvs []); exact Nk). rewrite Pk. split; [|split; [exact Nk|]].
  - intros d. rewrite !in_map_iff. split.
    + intros ([d' r] & E' & H). cbn in E'. subst d'. apply Hk in H as (i & _ & H & _). apply with_id_in in H as (m & H & _). exists (d, m). auto.
    + intros ([d' m] & E' & H). cbn in E'. subst d'. exists (d, hd [] (with_id models (m_id m))). split; [reflexivity|]. apply Hk. exists (m_id m). split; [eapply Ci; exact H|]. split; [apply with_id_in; eauto|reflexivity].
  - intros d m H. assert (Hin : In (d, hd [] (with_id models (m_id m))) kvs) by (apply Hk; exists (m_id m); split; [eapply Ci; exact H|split; [apply with_id_in; eauto|reflexivity]]).
    assert (Sp : exists before rep m' after, models = before ++ (rep, m') :: after /\ m_id m' = m_id m /\ (forall d0 m0, In (d0, m0) before -> m_id m0 <> m_id m) /\ hd [] (with_id models (m_id m)) = rep).
    { clear - H. unfold with_id. induction models as [|[d1 m1] l IH]; [destruct H|]. destruct (Nat.eqb_spec (m_id m1) (m_id m)) as [Em|Em].
      - exists [], d1, m1, l. split; [reflexivity|]. split; [exact Em|]. split; [intros ? ? []|]. cbn. rewrite (proj2 (Nat.eqb_eq _ _) Em). reflexivity.
      - destruct H as [H|H]; [injection H as -> ->; easy|]. destruct (IH H) as (b & r & m' & a & E1 & E2 & E3 & E4). exists ((d1, m1) :: b), r, m', a. split; [cbn; now rewrite <- E1|]. split; [exact E2|]. split.
        + intros d0 m0 [X|X]; [injection X as <- <-; exact Em|eauto].
        + cbn. rewrite (proj2 (Nat.eqb_neq _ _) Em). exact E4. }
    destruct Sp as (b & r & m' & a & E1 & E2 & E3 & E4). exists b, r, m', a. rewrite E4 in Hin. rewrite (get_nodup _ _ _ Nk Hin). auto.
Qed.
Print Assumptions C85_mapping.

(** ** the values *)
Definition parts_of (comps : bool) (m : cmodel) : list (str * (dict R -> spectrum)) := if comps then m_parts m else [([], m_total m)].
Lemma component_in comps m c S : component comps m c S <-> In (c, S) (parts_of comps m).
Proof. unfold component, parts_of. destruct comps; [reflexivity|]. cbn. split; [intros (-> & ->); now left|intros [E|[]]; injection E as <- <-; auto]. Qed.
Definition fluxes (g : list R) (energy comps : bool) (models : dict cmodel) (p : dict R) : dict (dict R) :=
  map (fun e : str * cmodel => (fst e, map (fun c : str * (dict R -> spectrum) => (fst c, flux energy (snd c p) g)) (parts_of comps (snd e)))) models.
Lemma model_flux_eq g energy comps m p : NoDup (map fst (m_parts m)) -> (comps = true -> (1 < length (m_parts m))%nat) ->
  model_flux g energy comps m p = Ok (map (fun c : str * (dict R -> spectrum) => (fst c, flux energy (snd c p) g)) (parts_of comps m)).
Proof.
  intros N H. unfold model_flux, parts_of. destruct comps; [|reflexivity]. destruct (Nat.leb_spec (length (m_parts m)) 1); [specialize (H eq_refl); lia|].
  rewrite puts_app; [reflexivity|]. cbn [map app]. rewrite map_map. exact N.
Qed.
Lemma flux_fn_inv models g energy comps p f : flux_fn models g energy comps p = Ok f -> comps = true -> forall d m, In (d, m) models -> (1 < length (m_parts m))%nat.
Proof.
  intros H -> d m Hin. unfold flux_fn in H. revert f H. induction models as [|[d' m'] l IH]; intros f H; [destruct Hin|]. cbn [mapE fst snd] in H. unfold model_flux at 1 in H.
  destruct (Nat.leb_spec (length (m_parts m')) 1); [discriminate|]. cbn in H. destruct (mapE _ l) as [f'|] eqn:E; [|discriminate]. destruct Hin as [X|X]; [injection X as -> ->; assumption|eapply IH; eauto].
Qed.
Lemma flux_fn_eq models g energy comps p : sound_models models -> (comps = true -> forall d m, In (d, m) models -> (1 < length (m_parts m))%nat) ->
  flux_fn models g energy comps p = Ok (fluxes g energy comps models p).
Proof.
  intros (_ & N & _) H. unfold flux_fn, fluxes. apply mapE_ok. intros [d m] Hin. cbn [fst snd]. rewrite model_flux_eq; [reflexivity|eapply N; exact Hin|]. intros E. eapply H; eauto.
Qed.
Lemma get_fluxes g energy comps models p d m : sound_models models -> In (d, m) models ->
  get (fluxes g energy comps models p) d = Some (map (fun c : str * (dict R -> spectrum) => (fst c, flux energy (snd c p) g)) (parts_of comps m)).
Proof. intros (N & _) H. apply get_nodup; [unfold fluxes; rewrite map_map; exact N|]. unfold fluxes. apply in_map_iff. exists (d, m). auto. Qed.
Lemma parts_nodup comps models d m : sound_models models -> In (d, m) models -> NoDup (map fst (parts_of comps m)).
Proof. intros (_ & N & _) H. unfold parts_of. destruct comps; [eapply N; exact H|repeat constructor; easy]. Qed.
Lemma flux_at_eq g energy comps models d m c S : sound_models models -> (comps = true -> forall d m, In (d, m) models -> (1 < length (m_parts m))%nat) ->
  In (d, m) models -> In (c, S) (parts_of comps m) -> flux_at models g energy comps d c = fun p => flux energy (S p) g.
Proof.
  intros W L H HS. apply functional_extensionality. intros p. unfold flux_at. rewrite flux_fn_eq by assumption. rewrite (get_fluxes g energy comps models p d m W H).
  rewrite (get_nodup _ c (flux energy (S p) g)); [reflexivity|rewrite map_map; eapply parts_nodup; eauto|]. apply in_map_iff. exists (c, S). auto.
Qed.
Lemma labels_eq g energy comps models p d m : sound_models models -> In (d, m) models -> labels_of (fluxes g energy comps models p) d = map fst (parts_of comps m).
Proof. intros W H. unfold labels_of. rewrite (get_fluxes g energy comps models p d m W H), map_map. reflexivity. Qed.

(** ** tables indexed by "data_label" *)
Section Tables.
Variables (comps : bool) (models : dict cmodel).
Hypothesis W : sound_models models.
Hypothesis Rd : readable comps models.
Variables (labels : str -> list str).
Hypothesis Lab : forall d m, In (d, m) models -> labels d = map fst (parts_of comps m).
Let mapping := model_mapping models.
Let reps := map snd mapping.
Lemma key_inj d d' m m' c c' : In (d, m) models -> In (d', m') models -> In c (map fst (parts_of comps m)) -> In c' (map fst (parts_of comps m')) ->
  flux_key comps d c = flux_key comps d' c' -> d = d' /\ c = c'.
Proof.
  intros H H' Hc Hc' E. unfold flux_key, parts_of in *. destruct comps eqn:Ec.
  - apply in_map_iff in Hc as ([c1 S] & <- & Hc). apply in_map_iff in Hc' as ([c1' S'] & <- & Hc'). eapply (Rd eq_refl); eauto.
  - split; [exact E|]. cbn in Hc, Hc'. destruct Hc as [<-|[]], Hc' as [<-|[]]. reflexivity.
Qed.
Lemma rep_of d m : In (d, m) models -> exists r, get mapping d = Some r /\ In (r, m) models /\ In r reps.
Proof.
  intros H. destruct W as (N & _ & Id). destruct (C85_mapping models N) as (_ & Nm & M). destruct (M d m H) as (b & r & m' & a & G & E & Ei & _).
  assert (Hr : In (r, m') models) by (rewrite E; apply in_or_app; right; now left). exists r. split; [exact G|]. split; [rewrite <- (Id _ _ _ _ Hr H Ei); exact Hr|].
  unfold reps. apply in_map_iff. exists (d, r). split; [reflexivity|]. now apply get_in in G.
Qed.
Lemma reps_in r : In r reps -> exists m, In (r, m) models.
Proof.
  intros H. unfold reps in H. apply in_map_iff in H as ([d r'] & E & H). cbn in E. subst r'. destruct W as (N & _ & Id). destruct (C85_mapping models N) as (K & Nm & M).
  assert (Hd : In d (map fst models)) by (apply K; apply in_map_iff; exists (d, r); auto). apply in_map_iff in Hd as ([d' m] & E & Hd). cbn in E. subst d'.
  destruct (M d m Hd) as (b & r0 & m' & a & G & E & _). rewrite (get_nodup _ _ _ Nm H) in G. injection G as ->. exists m'. rewrite E. apply in_or_app. right. now left.
Qed.
Lemma table_get {V} (val : str -> str -> V) d m c : In (d, m) models -> In d reps -> In c (map fst (parts_of comps m)) ->
  get (puts [] (flat_map (fun d => map (fun c => (flux_key comps d c, val d c)) (labels d)) reps)) (flux_key comps d c) = Some (val d c).
Proof.
  intros H Hr Hc. apply get_puts_func.
  - apply in_flat_map. exists d. split; [exact Hr|]. apply in_map_iff. exists c. split; [reflexivity|]. now rewrite (Lab _ _ H).
  - intros w Hw. apply in_flat_map in Hw as (d' & Hd' & Hw). apply in_map_iff in Hw as (c' & E & Hc'). injection E as E1 E2. destruct (reps_in _ Hd') as (m' & Hm'). rewrite (Lab _ _ Hm') in Hc'.
    destruct (key_inj d' d m' m c' c Hm' H Hc' Hc E1) as (-> & ->). now rewrite E2.
Qed.
Lemma unpack_get {V} (t : dict V) (val : str -> str -> V) : (forall d m c, In (d, m) models -> In d reps -> In c (map fst (parts_of comps m)) -> get t (flux_key comps d c) = Some (val d c)) ->
  exists u, unpack comps labels reps t = Ok u /\ forall d m, In (d, m) models -> In d reps -> get u d = Some (map (fun c => (c, val d c)) (map fst (parts_of comps m))).
Proof.
  intros H. unfold unpack. rewrite (mapE_ok _ (fun d => (d, map (fun c => (c, val d c)) (labels d)))).
  - cbn [bind]. eexists. split; [reflexivity|]. intros d m Hd Hr. rewrite <- (Lab _ _ Hd). apply get_puts_func; [apply in_map_iff; eauto|]. intros w Hw. apply in_map_iff in Hw as (d' & E & _). injection E as -> <-. reflexivity.
  - intros d Hr. destruct (reps_in _ Hr) as (m & Hm). rewrite (mapE_ok _ (fun c => (c, val d c))); [reflexivity|]. intros c Hc. rewrite (Lab _ _ Hm) in Hc. rewrite (H d m c Hm Hr Hc). reflexivity.
Qed.
Lemma by_data_get {V} (u : dict V) (val : str -> V) : (forall r, In r reps -> get u r = Some (val r)) ->
  exists b, by_data mapping u = Ok b /\ forall d m, In (d, m) models -> exists r, In (r, m) models /\ In r reps /\ get b d = Some (val r).
Proof.
  intros H. unfold by_data. rewrite (mapE_ok _ (fun e => (fst e, val (snd e)))).
  - eexists. split; [reflexivity|]. intros d m Hd. destruct (rep_of _ _ Hd) as (r & G & Hr & Hin). exists r. split; [exact Hr|]. split; [exact Hin|]. rewrite (get_map_val val mapping d), G. reflexivity.
  - intros [d r] Hin. cbn [fst snd]. rewrite H; [reflexivity|]. unfold reps. apply in_map_iff. exists (d, r). auto.
Qed.
Lemma table_by_data {V} (t : dict V) (val : str -> str -> V) : (forall d m c, In (d, m) models -> In d reps -> In c (map fst (parts_of comps m)) -> get t (flux_key comps d c) = Some (val d c)) ->
  exists u b, unpack comps labels reps t = Ok u /\ by_data mapping u = Ok b /\
  forall d m, In (d, m) models -> exists r, In (r, m) models /\ In r reps /\ get b d = Some (map (fun c => (c, val r c)) (map fst (parts_of comps m))).
Proof.
  intros H. destruct (unpack_get t val H) as (u & E & G). destruct (by_data_get u (fun r => map (fun c => (c, val r c)) (labels r))) as (b & E2 & G2).
  { intros r Hr. destruct (reps_in _ Hr) as (m & Hm). rewrite (Lab _ _ Hm). now apply G. }
  exists u, b. split; [exact E|]. split; [exact E2|]. intros d m Hd. destruct (G2 d m Hd) as (r & A & B & C). exists r. split; [exact A|]. split; [exact B|]. now rewrite C, (Lab _ _ A).
Qed.
End Tables.

Lemma at2_scale {V} (h : V -> V) t d c : at2 (scale_all h t) d c = option_map h (at2 t d c).
Proof.
  unfold at2, scale_all. induction t as [|[n x] t IH]; [reflexivity|]. cbn [map get fst snd]. destruct (str_eqb d n); [|exact IH]. apply (get_map_val h x c).
Qed.
Lemma get_map_fst {V} (val : str -> V) (l : list str) c : In c l -> get (map (fun c => (c, val c)) l) c = Some (val c).
Proof. intros H. rewrite get_map_names. now rewrite (proj2 (HelperNamesProofs.mem_spec _ _) H). Qed.

(** the reported value is the flux of that component at the fitted values overwritten by the user's, times the factor; error,
    interval and distance of the interval's ends are those of the same component's flux as a function of the parameters *)
Theorem C85_value : forall sf models mle se_of minos boot g energy cl h method comps params r, sound_models models -> readable comps models ->
  intensity_ci sf models mle se_of minos boot g energy cl h method comps params = Ok r ->
  to_unit_cl sf cl = Ok (i_cl r) /\
  forall d m c S, In (d, m) models -> component comps m c S -> let F := fun p => flux energy (S p) g in
  exists lo hi, at2 (i_mle r) d c = Some (F (puts mle params) * h) /\ at2 (i_se r) d c = Some (se_of F * h) /\
    at2 (i_intervals r) d c = Some (lo * h, hi * h) /\ at2 (i_errors r) d c = Some ((lo - F (puts mle params)) * h, (hi - F (puts mle params)) * h) /\
    match method with
    | MProfile => lo = exp (ln (F mle) + fst (minos (fun p => ln (F p)))) /\ hi = exp (ln (F mle) + snd (minos (fun p => ln (F p))))
    | MBoot => exists rows, boot = Some rows /\ quantile (map (fun p => F (puts p params)) rows) ((1 - i_cl r) / 2) = Ok lo /\
                 quantile (map (fun p => F (puts p params)) rows) ((1 + i_cl r) / 2) = Ok hi
    | MOther => False
    end.
Proof.
  intros sf models mle se_of minos boot g energy cl h method comps params r W Rd H. unfold intensity_ci in H.
  apply bind_ok in H as (cl' & Hcl & H). apply bind_ok in H as (mf & Hmf & H). cbv zeta in H.
  pose proof (flux_fn_inv _ _ _ _ _ _ Hmf) as L. rewrite flux_fn_eq in Hmf by assumption. injection Hmf as <-.
  set (mapping := model_mapping models) in *. set (reps := map snd mapping) in *. set (labels := labels_of (fluxes g energy comps models (puts mle params))) in *.
  assert (Lab : forall d m, In (d, m) models -> labels d = map fst (parts_of comps m)) by (intros d m Hd; now apply labels_eq).
  set (fns := puts [] (flat_map _ reps)) in *.
  assert (Fns : forall d m c, In (d, m) models -> In d reps -> In c (map fst (parts_of comps m)) -> get fns (flux_key comps d c) = Some (flux_at models g energy comps d c)).
  { intros d m c Hd Hr Hc. unfold fns. exact (table_get comps models W Rd labels Lab (fun d c => flux_at models g energy comps d c) d m c Hd Hr Hc). }
  apply bind_ok in H as (ivd & Hiv & H). apply bind_ok in H as (se1 & Hse1 & H). apply bind_ok in H as (iv1 & Hiv1 & H). apply bind_ok in H as (dist & Hdist & H).
  apply bind_ok in H as (iv2 & Hiv2 & H). apply bind_ok in H as (se2 & Hse2 & H). apply bind_ok in H as (er & Her & H). injection H as <-. cbn [i_cl i_mle i_se i_intervals i_errors].
  split; [exact Hcl|]. intros d m c S Hd Hc. set (F := fun p => flux energy (S p) g). apply component_in in Hc as HcS. assert (Hcm : In c (map fst (parts_of comps m))) by (apply in_map_iff; exists (c, S); auto).
  (* standard errors *)
  destruct (table_by_data comps models W labels Lab (map (fun e : str * (dict R -> R) => (fst e, se_of (snd e))) fns) (fun d c => se_of (flux_at models g energy comps d c))) as (u1 & b1 & U1 & B1 & G1).
  { intros d0 m0 c0 H1 H2 H3. rewrite (get_map_val se_of fns), (Fns d0 m0 c0 H1 H2 H3). reflexivity. }
  fold mapping reps in U1, B1. assert (se1 = u1) by (pose proof (eq_trans (eq_sym Hse1) U1) as X; injection X as X; exact X). subst se1. assert (se2 = b1) by (pose proof (eq_trans (eq_sym Hse2) B1) as X; injection X as X; exact X). subst se2.
  (* intervals *)
  set (val := fun d c => match method with MProfile => profile_interval mle minos (flux_at models g energy comps d c)
     | MBoot => match boot with Some rows => match boot_interval rows params cl' (flux_at models g energy comps d c) with Ok i => i | Err _ => (0, 0) end | None => (0, 0) end | MOther => (0, 0) end).
  assert (T : forall d m c, In (d, m) models -> In d reps -> In c (map fst (parts_of comps m)) -> get (fst ivd) (flux_key comps d c) = Some (val d c) /\
     (method = MBoot -> exists rows, boot = Some rows /\ boot_interval rows params cl' (flux_at models g energy comps d c) = Ok (val d c)) /\ method <> MOther).
  { intros d0 m0 c0 H1 H2 H3. unfold val. pose proof (Fns d0 m0 c0 H1 H2 H3) as Gf. destruct method; [| |discriminate].
    - injection Hiv as <-. cbn [fst]. rewrite (get_map_val (profile_interval mle minos) fns), Gf. split; [reflexivity|]. split; [discriminate|discriminate].
    - destruct boot as [rows|]; [|discriminate]. apply bind_ok in Hiv as (iv & Hiv & E). injection E as <-. cbn [fst].
      assert (X : exists i, boot_interval rows params cl' (flux_at models g energy comps d0 c0) = Ok i /\ get iv (flux_key comps d0 c0) = Some i).
      { clear - Hiv Gf. revert iv Hiv Gf. induction fns as [|[k f] l IH]; intros iv Hiv Gf; [discriminate|]. cbn in Hiv. destruct (boot_interval rows params cl' f) as [i|] eqn:E; [|discriminate]. cbn in Hiv.
        destruct (mapE _ l) as [iv'|] eqn:E'; [|discriminate]. cbn in Hiv. injection Hiv as <-. cbn in *. destruct (str_eqb (flux_key comps d0 c0) k); [injection Gf as ->; eauto|eapply IH; eauto]. }
      destruct X as (i & Ei & Gi). rewrite Ei. split; [exact Gi|]. split; [|discriminate]. intros _. exists rows. auto. }
  destruct (table_by_data comps models W labels Lab (fst ivd) val) as (u2 & b2 & U2 & B2 & G2); [intros d0 m0 c0 H1 H2 H3; exact (proj1 (T d0 m0 c0 H1 H2 H3))|].
  fold mapping reps in U2, B2. assert (iv1 = u2) by (pose proof (eq_trans (eq_sym Hiv1) U2) as X; injection X as X; exact X). subst iv1. assert (iv2 = b2) by (pose proof (eq_trans (eq_sym Hiv2) B2) as X; injection X as X; exact X). subst iv2.
  destruct (G2 d m Hd) as (rp & Hrp & Hrr & Gd). destruct (G1 d m Hd) as (rp1 & Hrp1 & Hrr1 & Gd1). destruct (T rp m c Hrp Hrr Hcm) as (_ & Tb & Tm).
  pose proof (flux_at_eq g energy comps models rp m c S W L Hrp HcS) as EF. pose proof (flux_at_eq g energy comps models rp1 m c S W L Hrp1 HcS) as EF1. fold F in EF, EF1.
  exists (fst (val rp c)), (snd (val rp c)).
  assert (Gm : at2 (fluxes g energy comps models (puts mle params)) d c = Some (F (puts mle params))).
  { unfold at2. rewrite (get_fluxes g energy comps models (puts mle params) d m W Hd). apply get_nodup; [rewrite map_map; eapply parts_nodup; eauto|]. apply in_map_iff. exists (c, S). auto. }
  rewrite !at2_scale. split; [now rewrite Gm|]. split; [unfold at2; rewrite Gd1, (get_map_fst (fun c => se_of (flux_at models g energy comps rp1 c))) by exact Hcm; cbn [option_map]; now rewrite EF1|].
  split; [unfold at2; rewrite Gd, (get_map_fst (val rp)) by exact Hcm; reflexivity|]. split.
  - assert (Ge : at2 er d c = Some (fst (val rp c) - F (puts mle params), snd (val rp c) - F (puts mle params))); [|rewrite Ge; reflexivity].
    rewrite (mapE_ok _ (fun e : str * dict R => (fst e, map (fun x : str * R => (fst x, match at2 b2 (fst e) (fst x) with Some i => (fst i - snd x, snd i - snd x) | None => (0, 0) end)) (snd e)))) in Her.
    + injection Her as <-. unfold at2. rewrite (get_nodup _ d (map (fun x : str * R => (fst x, match at2 b2 d (fst x) with Some i => (fst i - snd x, snd i - snd x) | None => (0, 0) end))
          (map (fun c : str * (dict R -> spectrum) => (fst c, flux energy (snd c (puts mle params)) g)) (parts_of comps m)))).
      * apply get_nodup; [rewrite !map_map; eapply parts_nodup; eauto|]. apply in_map_iff. exists (c, F (puts mle params)). split; [|apply in_map_iff; exists (c, S); auto]. cbn [fst snd]. unfold at2. rewrite Gd, (get_map_fst (val rp)) by exact Hcm. reflexivity.
      * unfold fluxes. rewrite !map_map. apply W.
      * apply in_map_iff. exists (d, map (fun c : str * (dict R -> spectrum) => (fst c, flux energy (snd c (puts mle params)) g)) (parts_of comps m)). split; [reflexivity|]. unfold fluxes. apply in_map_iff. exists (d, m). auto.
    + intros [d0 x0] Hin. cbn [fst snd]. unfold fluxes in Hin. apply in_map_iff in Hin as ([d1 m1] & E & Hin). cbn [fst snd] in E. injection E as -> <-. destruct (G2 d0 m1 Hin) as (r1 & _ & _ & Gr1). rewrite Gr1. cbn [opt_res bind].
      rewrite (mapE_ok _ (fun x : str * R => (fst x, match at2 b2 d0 (fst x) with Some i => (fst i - snd x, snd i - snd x) | None => (0, 0) end))); [reflexivity|].
      intros [c1 v1] Hc1. cbn [fst snd]. apply in_map_iff in Hc1 as ([c2 S2] & E & Hc2). injection E as -> <-. unfold at2. rewrite Gr1, (get_map_fst (val r1)) by (apply in_map_iff; exists (c1, S2); auto). reflexivity.
  - unfold val in *. destruct method; [| |easy].
    + unfold profile_interval. cbv zeta. rewrite EF. split; reflexivity.
    + destruct (Tb eq_refl) as (rows & -> & Eb). exists rows. split; [reflexivity|]. set (i := match boot_interval _ _ _ _ with Ok i => i | Err _ => (0, 0) end) in *. clearbody i.
      unfold boot_interval, boot_values in Eb. rewrite EF in Eb. apply bind_ok in Eb as (lo & Hlo & Eb). apply bind_ok in Eb as (hi & Hhi & Eb). injection Eb as <-. cbn [fst snd].
      replace ((1 - cl') / 2) with (0.5 - 0.5 * cl') by lra. replace ((1 + cl') / 2) with (0.5 + 0.5 * cl') by lra. auto.
Qed.
Print Assumptions C85_value.

(** ** when the names are readable: data names without underscores *)
Theorem C85_readable : forall comps models, (forall d m, In (d, m) models -> ~ In "_"%char d) -> readable comps models.
Proof. intros comps models H Hc d m d' m' c c' S S' H1 H2 _ _ E. cbn [s2l app list_ascii_of_string] in E. eapply split_first; [eapply H; eauto|eapply H; eauto|exact E]. Qed.
Print Assumptions C85_readable.

(** ** consequences for the profile method *)
(** without user's values, the reported interval is positive and holds the reported value *)
Theorem C85_profile_contains : forall sf models mle se_of minos boot g energy cl h comps r d m c S, sound_models models -> readable comps models ->
  intensity_ci sf models mle se_of minos boot g energy cl h MProfile comps [] = Ok r -> In (d, m) models -> component comps m c S ->
  0 < h -> 0 < flux energy (S mle) g -> fst (minos (fun p => ln (flux energy (S p) g))) <= 0 <= snd (minos (fun p => ln (flux energy (S p) g))) ->
  exists v lo hi e1 e2, at2 (i_mle r) d c = Some v /\ at2 (i_intervals r) d c = Some (lo, hi) /\ at2 (i_errors r) d c = Some (e1, e2) /\
    0 < lo <= v /\ v <= hi /\ e1 = lo - v /\ e2 = hi - v.
Proof.
  intros sf models mle se_of minos boot g energy cl h comps r d m c S W Rd H Hd Hc Hh Hf (O1 & O2). destruct (C85_value _ _ _ _ _ _ _ _ _ _ _ _ _ _ W Rd H) as (_ & V).
  destruct (V d m c S Hd Hc) as (lo & hi & A & _ & B & C & D & E). change (puts mle []) with mle in *. set (F := fun p => flux energy (S p) g) in *. cbv beta in *.
  exists (F mle * h), (lo * h), (hi * h), ((lo - F mle) * h), ((hi - F mle) * h). repeat (split; [assumption|]).
  assert (X : F mle = exp (ln (F mle))) by (rewrite exp_ln; [reflexivity|exact Hf]). assert (Mono : forall x y, x <= y -> exp x <= exp y) by (intros x y [L| ->]; [left; now apply exp_increasing|lra]).
  change (fst (minos (fun p => ln (F p))) <= 0) in O1. change (0 <= snd (minos (fun p => ln (F p)))) in O2. change (lo = exp (ln (F mle) + fst (minos (fun p => ln (F p))))) in D. change (hi = exp (ln (F mle) + snd (minos (fun p => ln (F p))))) in E.
  assert (lo <= exp (ln (F mle))) by (rewrite D; apply Mono; lra). assert (exp (ln (F mle)) <= hi) by (rewrite E; apply Mono; lra). rewrite <- X in *. assert (0 < lo) by (rewrite D; apply exp_pos).
  split; [split; [now apply Rmult_lt_0_compat|apply Rmult_le_compat_r; lra]|]. split; [apply Rmult_le_compat_r; lra|]. split; ring.
Qed.
Print Assumptions C85_profile_contains.
(** ** the bootstrap method *)
Lemma central_of v p lo hi : 0 < p < 1 -> quantile v ((1 - p) / 2) = Ok lo -> quantile v ((1 + p) / 2) = Ok hi -> central v p lo hi /\ lo <= hi.
Proof.
  intros Hp Hl Hh. split; [|eapply quantile_mono; eauto; lra]. unfold central. cbv zeta. intros k. repeat split; intros C.
  - exact (quantile_below _ _ _ _ Hl C).
  - pose proof (quantile_above _ _ _ _ Hl C). replace ((1 + p) / 2) with (1 - (1 - p) / 2) by lra. exact H.
  - exact (quantile_below _ _ _ _ Hh C).
  - pose proof (quantile_above _ _ _ _ Hh C). replace ((1 - p) / 2) with (1 - (1 + p) / 2) by lra. exact H.
Qed.
(** the interval is the central one of the fluxes at the bootstrap parameters, the user's values put in *)
Theorem C85_boot_central : forall sf, tail_probability sf -> forall models mle se_of minos boot g energy cl h comps params r d m c S, sound_models models -> readable comps models ->
  intensity_ci sf models mle se_of minos boot g energy cl h MBoot comps params = Ok r -> In (d, m) models -> component comps m c S ->
  exists rows lo hi, boot = Some rows /\ at2 (i_intervals r) d c = Some (lo * h, hi * h) /\ central (map (fun p => flux energy (S (puts p params)) g) rows) (i_cl r) lo hi /\ lo <= hi.
Proof.
  intros sf T models mle se_of minos boot g energy cl h comps params r d m c S W Rd H Hd Hc. destruct (C85_value _ _ _ _ _ _ _ _ _ _ _ _ _ _ W Rd H) as (Hcl & V).
  destruct (V d m c S Hd Hc) as (lo & hi & _ & _ & B & _ & rows & Er & Q1 & Q2). exists rows, lo, hi. split; [exact Er|]. split; [exact B|]. apply central_of; auto.
  destruct (Rle_dec cl 0) as [L|L]; [destruct (C52_levels sf T cl) as (X & _); destruct (X L) as (e & Xe); congruence|].
  destruct (C52_levels sf T cl) as (_ & _ & _ & X). destruct (X ltac:(lra)) as (p & Ep & Hp & _). congruence.
Qed.
Print Assumptions C85_boot_central.
(** ** what raises *)
Theorem C85_raises : forall sf models mle se_of minos boot g energy cl h method comps params,
  (cl <= 0 -> exists e, intensity_ci sf models mle se_of minos boot g energy cl h method comps params = Err e) /\
  (forall d m, comps = true -> In (d, m) models -> (length (m_parts m) <= 1)%nat -> exists e, intensity_ci sf models mle se_of minos boot g energy cl h method comps params = Err e) /\
  (method = MBoot -> boot = None -> exists e, intensity_ci sf models mle se_of minos boot g energy cl h method comps params = Err e) /\
  (method = MOther -> exists e, intensity_ci sf models mle se_of minos boot g energy cl h method comps params = Err e).
Proof.
  intros sf models mle se_of minos boot g energy cl h method comps params. destruct (intensity_ci sf models mle se_of minos boot g energy cl h method comps params) as [r|e] eqn:H; [|repeat split; eauto].
  unfold intensity_ci in H. apply bind_ok in H as (cl' & Hcl & H). apply bind_ok in H as (mf & Hmf & H). cbv zeta in H. apply bind_ok in H as (ivd & Hiv & H). repeat split.
  - intros L. unfold to_unit_cl in Hcl. destruct (Rleb_spec cl 0); [discriminate|lra].
  - intros d m Ec Hd L. pose proof (flux_fn_inv _ _ _ _ _ _ Hmf Ec d m Hd). lia.
  - intros -> ->. discriminate.
  - intros ->. discriminate.
Qed.
Print Assumptions C85_raises.
(** ** when it answers *)
Theorem C85_defined : forall sf models mle se_of minos boot g energy cl p h method comps params, sound_models models -> readable comps models ->
  to_unit_cl sf cl = Ok p -> 0 < p < 1 -> (comps = true -> forall d m, In (d, m) models -> (1 < length (m_parts m))%nat) ->
  (method = MProfile \/ (method = MBoot /\ exists row rows, boot = Some (row :: rows))) ->
  exists r, intensity_ci sf models mle se_of minos boot g energy cl h method comps params = Ok r.
Proof.
  intros sf models mle se_of minos boot g energy cl cl' h method comps params W Rd Hcl Hp L Hm. unfold intensity_ci. rewrite Hcl. cbn [bind]. rewrite flux_fn_eq by assumption. cbn [bind].
  set (mapping := model_mapping models). set (reps := map snd mapping). set (labels := labels_of (fluxes g energy comps models (puts mle params))).
  assert (Lab : forall d m, In (d, m) models -> labels d = map fst (parts_of comps m)) by (intros d m Hd; now apply labels_eq). cbv zeta.
  set (fns := puts [] (flat_map _ reps)).
  assert (Fns : forall d m c, In (d, m) models -> In d reps -> In c (map fst (parts_of comps m)) -> get fns (flux_key comps d c) = Some (flux_at models g energy comps d c)).
  { intros d m c Hd Hr Hc. unfold fns. exact (table_get comps models W Rd labels Lab (fun d c => flux_at models g energy comps d c) d m c Hd Hr Hc). }
  set (ivs := match method with MProfile => _ | MBoot => _ | MOther => _ end).
  assert (Iv : exists (val : (dict R -> R) -> R * R) dist, ivs = Ok (map (fun e : str * (dict R -> R) => (fst e, val (snd e))) fns, dist) /\
     (method = MBoot -> forall d m c, In (d, m) models -> In d reps -> In c (map fst (parts_of comps m)) -> exists x, get dist (flux_key comps d c) = Some x)).
  { unfold ivs. destruct Hm as [-> | (-> & row & rows & ->)].
    - exists (profile_interval mle minos), []. split; [reflexivity|discriminate].
    - set (val := fun f => match boot_interval (row :: rows) params cl' f with Ok i => i | Err _ => (0, 0) end).
      rewrite (mapE_ok _ (fun e : str * (dict R -> R) => (fst e, val (snd e)))).
      + cbn [bind]. exists val. eexists. split; [reflexivity|]. intros _ d m c Hd Hr Hc.
        set (kvs := map _ fns). set (pd := map _ (map fst mle)).
        assert (Gk : get kvs (flux_key comps d c) = Some (boot_values (row :: rows) params (flux_at models g energy comps d c))) by (unfold kvs; rewrite (get_map_val (boot_values (row :: rows) params) fns), (Fns d m c Hd Hr Hc); reflexivity).
        apply get_in in Gk. clear - Gk. generalize pd. generalize dependent (boot_values (row :: rows) params (flux_at models g energy comps d c)). generalize kvs (flux_key comps d c). clear. intros l k v H pd.
        revert pd v H. induction l as [|[k' v'] l IH]; intros pd v H; [destruct H|]. change (exists x, get (puts (put pd k' v') l) k = Some x).
        destruct (in_dec str_eq_dec k (map fst l)) as [I|I]; [apply in_map_iff in I as ([k2 v2] & E & I); cbn in E; subst k2; eapply IH; exact I|].
        rewrite get_puts_absent by exact I. destruct H as [E|H]; [|exfalso; apply I, in_map_iff; now exists (k, v)]. injection E as -> ->. rewrite get_put. destruct (str_eqb_spec k k); [eauto|easy].
      + intros [k f] _. cbn [fst snd]. unfold val, boot_interval. destruct (quantile_defined (boot_values (row :: rows) params f) (0.5 - 0.5 * cl')) as (lo & El); [discriminate|lra|]. destruct (quantile_defined (boot_values (row :: rows) params f) (0.5 + 0.5 * cl')) as (hi & Eh); [discriminate|lra|]. rewrite El. cbn [bind]. rewrite Eh. reflexivity. }
  destruct Iv as (val & dist & -> & Hdist). cbn [bind fst snd].
  destruct (table_by_data comps models W labels Lab (map (fun e : str * (dict R -> R) => (fst e, se_of (snd e))) fns) (fun d c => se_of (flux_at models g energy comps d c))) as (u1 & b1 & U1 & B1 & G1).
  { intros d0 m0 c0 H1 H2 H3. rewrite (get_map_val se_of fns), (Fns d0 m0 c0 H1 H2 H3). reflexivity. }
  destruct (table_by_data comps models W labels Lab (map (fun e : str * (dict R -> R) => (fst e, val (snd e))) fns) (fun d c => val (flux_at models g energy comps d c))) as (u2 & b2 & U2 & B2 & G2).
  { intros d0 m0 c0 H1 H2 H3. rewrite (get_map_val val fns), (Fns d0 m0 c0 H1 H2 H3). reflexivity. }
  fold mapping reps in U1, B1, U2, B2. rewrite U1. cbn [bind]. rewrite U2. cbn [bind].
  match goal with |- exists r, bind ?A _ = _ => assert (D : exists dd, A = Ok dd) end.
  { destruct method; eauto. destruct comps eqn:Ec; eauto. subst comps. destruct (unpack_get true models W labels Lab dist (fun d c => match get dist (flux_key true d c) with Some x => x | None => [] end)) as (u & Eu & _).
    - intros d m c Hd Hr Hc. destruct (Hdist eq_refl d m c Hd Hr Hc) as (x & ->). reflexivity.
    - exists u. exact Eu. }
  destruct D as (dd & ->). cbn [bind]. rewrite B2. cbn [bind]. rewrite B1. cbn [bind].
  rewrite (mapE_ok _ (fun e : str * dict R => (fst e, map (fun x : str * R => (fst x, match at2 b2 (fst e) (fst x) with Some i => (fst i - snd x, snd i - snd x) | None => (0, 0) end)) (snd e)))); [cbn [bind]; eauto|].
  intros [d0 x0] Hin. cbn [fst snd]. unfold fluxes in Hin. apply in_map_iff in Hin as ([d1 m1] & E & Hin). cbn [fst snd] in E. injection E as -> <-. destruct (G2 d0 m1 Hin) as (r1 & _ & _ & Gr1). rewrite Gr1. cbn [opt_res bind].
  rewrite (mapE_ok _ (fun x : str * R => (fst x, match at2 b2 d0 (fst x) with Some i => (fst i - snd x, snd i - snd x) | None => (0, 0) end))); [reflexivity|].
  intros [c1 v1] Hc1. cbn [fst snd]. apply in_map_iff in Hc1 as ([c2 S2] & E & Hc2). injection E as -> <-. unfold at2. rewrite Gr1, (get_map_fst (fun c => val (flux_at models g energy comps r1 c))) by (apply in_map_iff; exists (c1, S2); auto). reflexivity.
Qed.
Print Assumptions C85_defined.

(** ** what does not hold *)
Definition constant (v : R) : dict R -> spectrum := fun _ _ => [v].
Lemma flux_unit v : flux false (fun _ => [v]) [1; 2] = v.
Proof. unfold flux, ne, rsum. cbn. field. Qed.
Lemma half_cl sf : to_unit_cl sf (1 / 2) = Ok (1 / 2).
Proof. unfold to_unit_cl. destruct (Rleb_spec (1 / 2) 0); [lra|]. destruct (Rltb_spec (1 / 2) 1); [reflexivity|lra]. Qed.
(** data 'a' with components 'x_y', 'z' and data 'a_x' with components 'y', 'w': the interval given for x_y of a is that of y of a_x *)
Theorem C85_collision_refuted : forall sf se_of, exists models r, sound_models models /\
  intensity_ci sf models [] se_of (fun _ => (0, 0)) None [1; 2] false (1 / 2) 1 MProfile true [] = Ok r /\
  (exists m, In (s2l "a", m) models /\ component true m (s2l "x_y") (constant 1)) /\
  at2 (i_mle r) (s2l "a") (s2l "x_y") = Some 1 /\ at2 (i_intervals r) (s2l "a") (s2l "x_y") = Some (5, 5).
Proof.
  intros sf se_of. set (m1 := {| m_id := 0; m_total := constant 3; m_parts := [(s2l "x_y", constant 1); (s2l "z", constant 2)] |}).
  set (m2 := {| m_id := 1; m_total := constant 11; m_parts := [(s2l "y", constant 5); (s2l "w", constant 6)] |}). exists [(s2l "a", m1); (s2l "a_x", m2)].
  eexists. split; [|split; [unfold intensity_ci; rewrite half_cl; reflexivity|]].
  - split; [|split].
    + repeat constructor; cbn; intuition discriminate.
    + intros d m [E|[E|[]]]; injection E as <- <-; repeat constructor; cbn; intuition discriminate.
    + intros d m d' m' [E|[E|[]]] [E'|[E'|[]]] X; injection E as <- <-; injection E' as <- <-; try reflexivity; discriminate.
  - split; [exists m1; split; [now left|now left]|]. split.
    + transitivity (Some (flux false (constant 1 []) [1; 2] * 1)); [reflexivity|]. unfold constant. rewrite flux_unit. f_equal. ring.
    + transitivity (Some (exp (ln (flux false (constant 5 []) [1; 2]) + 0) * 1, exp (ln (flux false (constant 5 []) [1; 2]) + 0) * 1)); [reflexivity|]. unfold constant. rewrite flux_unit, Rplus_0_r, exp_ln by lra. f_equal. f_equal; ring.
Qed.
Print Assumptions C85_collision_refuted.
(** user's values move the reported value but not the profile interval, so the value can lie outside *)
Theorem C85_params_refuted :
  (forall sf models mle se_of minos boot g energy cl h comps params r r', sound_models models -> readable comps models ->
     intensity_ci sf models mle se_of minos boot g energy cl h MProfile comps params = Ok r -> intensity_ci sf models mle se_of minos boot g energy cl h MProfile comps [] = Ok r' ->
     forall d m c S, In (d, m) models -> component comps m c S -> at2 (i_intervals r) d c = at2 (i_intervals r') d c) /\
  (forall sf se_of, exists models r v lo hi, intensity_ci sf models [(s2l "n", 1)] se_of (fun _ => (-1, 1)) None [1; 2] false (1 / 2) 1 MProfile false [(s2l "n", 10)] = Ok r /\
     at2 (i_mle r) (s2l "a") [] = Some v /\ at2 (i_intervals r) (s2l "a") [] = Some (lo, hi) /\ lo < hi < v).
Proof.
  split.
  - intros sf models mle se_of minos boot g energy cl h comps params r r' W Rd H H' d m c S Hd Hc. destruct (C85_value _ _ _ _ _ _ _ _ _ _ _ _ _ _ W Rd H) as (_ & V). destruct (C85_value _ _ _ _ _ _ _ _ _ _ _ _ _ _ W Rd H') as (_ & V').
    destruct (V d m c S Hd Hc) as (lo & hi & _ & _ & B & _ & D & E). destruct (V' d m c S Hd Hc) as (lo' & hi' & _ & _ & B' & _ & D' & E'). rewrite B, B'. congruence.
  - intros sf se_of. set (S := fun (p : dict R) (_ : list R) => [match get p (s2l "n") with Some x => x | None => 0 end]).
    exists [(s2l "a", {| m_id := 0; m_total := S; m_parts := [] |})]. do 4 eexists. split; [unfold intensity_ci; rewrite half_cl; reflexivity|]. split; [|split].
    + transitivity (Some (flux false (S [(s2l "n", 10)]) [1; 2] * 1)); reflexivity.
    + transitivity (Some (exp (ln (flux false (S [(s2l "n", 1)]) [1; 2]) + -1) * 1, exp (ln (flux false (S [(s2l "n", 1)]) [1; 2]) + 1) * 1)); reflexivity.
    + change (S [(s2l "n", 10)]) with (fun _ : list R => [10]). change (S [(s2l "n", 1)]) with (fun _ : list R => [1]). rewrite !flux_unit, ln_1, !Rplus_0_l, !Rmult_1_r. split; [apply exp_increasing; lra|]. pose proof exp_le_3. lra.
Qed.
Print Assumptions C85_params_refuted.
(** the samples returned by the bootstrap method: intensities only for the first data of each model; without components, there are also the
    bootstrap samples of the parameters, multiplied like fluxes *)
Theorem C85_dist : forall sf models mle se_of minos rows g energy cl h params r, sound_models models ->
  intensity_ci sf models mle se_of minos (Some rows) g energy cl h MBoot false params = Ok r ->
  (forall d m, In (d, m) models -> In d (map snd (model_mapping models)) -> at2 (i_dist r) d [] = Some (map (fun p => flux energy (m_total m (puts p params)) g * h) rows)) /\
  (forall d, ~ In d (map snd (model_mapping models)) -> ~ In d (map fst mle) -> get (i_dist r) d = None) /\
  (forall k, ~ In k (map snd (model_mapping models)) -> In k (map fst mle) -> (forall p, In p rows -> get p k <> None) ->
     exists v, at2 (i_dist r) k [] = Some (map (fun x => x * h) v) /\ map Some v = map (fun p => get p k) rows).
Proof.
  intros sf models mle se_of minos rows g energy cl h params r W H. unfold intensity_ci in H.
  assert (Rd : readable false models) by (intros E; discriminate). assert (Lb : false = true -> forall d m, In (d, m) models -> (1 < length (m_parts m))%nat) by discriminate.
  apply bind_ok in H as (cl' & Hcl & H). apply bind_ok in H as (mf & Hmf & H). cbv zeta in H. rewrite flux_fn_eq in Hmf by assumption. injection Hmf as <-.
  set (mapping := model_mapping models) in *. set (reps := map snd mapping) in *. set (labels := labels_of (fluxes g energy false models (puts mle params))) in *.
  assert (Lab : forall d m, In (d, m) models -> labels d = map fst (parts_of false m)) by (intros d m Hd; now apply labels_eq).
  set (kvs := flat_map (fun d => map (fun c => (flux_key false d c, flux_at models g energy false d c)) (labels d)) reps) in *. set (fns := puts [] kvs) in *.
  apply bind_ok in H as (ivd & Hiv & H). apply bind_ok in H as (se1 & _ & H). apply bind_ok in H as (iv1 & _ & H). apply bind_ok in H as (dist & Hdist & H).
  apply bind_ok in H as (iv2 & _ & H). apply bind_ok in H as (se2 & _ & H). apply bind_ok in H as (er & _ & H). injection H as <-. cbn [i_dist].
  apply bind_ok in Hiv as (iv & _ & Hiv). injection Hiv as <-. cbn [snd] in Hdist. injection Hdist as <-.
  set (pd := map (fun k => (k, map (fun p => match get p k with Some x => x | None => 0 end) rows)) (map fst mle)). set (fd := map (fun e : str * (dict R -> R) => (fst e, boot_values rows params (snd e))) fns).
  assert (At : forall d c, at2 (scale_all (map (fun x => x * h)) (map (fun e : str * list R => (fst e, [([], snd e)])) (puts pd fd))) d c = option_map (map (fun x => x * h)) (match get (puts pd fd) d with Some v => get [([], v)] c | None => None end)).
  { intros d c. rewrite at2_scale. unfold at2. generalize (puts pd fd). intros t. induction t as [|[n v] t IH]; [reflexivity|]. cbn [map get fst snd]. destruct (str_eqb d n); [reflexivity|exact IH]. }
  assert (Kf : forall d, In d (map fst fd) <-> In d reps).
  { intros d. unfold fd. rewrite map_map. cbn [fst]. change (map (fun x : str * (dict R -> R) => fst x) fns) with (map fst fns). split.
    - intros Hd. apply in_map_iff in Hd as ([d' f] & E & Hd). cbn in E. subst d'. assert (G : exists f', get fns d = Some f').
      { destruct (get fns d) eqn:G; [eauto|]. exfalso. apply get_none_iff in G. apply G. apply in_map_iff. exists (d, f). auto. }
      destruct G as (f' & G). unfold fns in G. apply puts_keys_in in G as [G|G]; [discriminate|]. unfold kvs in G. apply in_flat_map in G as (r & Hr & G). apply in_map_iff in G as (c & E & _). injection E as <- _. exact Hr.
    - intros Hr. destruct (reps_in models W d Hr) as (m & Hm). pose proof (table_get false models W Rd labels Lab (fun d c => flux_at models g energy false d c) d m [] Hm Hr (or_introl eq_refl)) as G.
      fold mapping reps kvs fns in G. cbn [flux_key] in G. apply get_in in G. apply in_map_iff. eexists. split; [|exact G]. reflexivity. }
  assert (Nf : NoDup (map fst fd)).
  { unfold fd. rewrite map_map. change (NoDup (map fst fns)). unfold fns. assert (P : forall l (d : dict (dict R -> R)), NoDup (map fst d) -> NoDup (map fst (puts d l))).
    { induction l as [|[k v] l IH]; intros d N; [exact N|]. apply IH. cbn [fst snd]. clear - N. induction d as [|[a w] d IH]; [repeat constructor; easy|]. cbn in N. inversion N as [|? ? Na Nd]; subst. cbn [put]. destruct (str_eqb_spec k a) as [->|Ne]; [exact N|]. cbn. constructor; [|now apply IH].
      intros X. apply Na. apply in_map_iff in X as ([a' w'] & E & X). cbn in E. subst a'. clear - X Ne. induction d as [|[b u] d IH]; cbn in X; [destruct X as [X|[]]; injection X as -> _; easy|]. destruct (str_eqb_spec k b) as [->|Nb]; destruct X as [X|X]; try (injection X as <- <-; now left); [right; apply in_map_iff; now exists (a, w')|right; now apply IH]. }
    apply P. constructor. }
  split; [|split].
  - intros d m Hd Hr. rewrite At. assert (G : get (puts pd fd) d = Some (boot_values rows params (fun p => flux energy (m_total m p) g))).
    { apply get_puts; [exact Nf|]. rewrite <- (flux_at_eq g energy false models d m [] (m_total m) W Lb Hd (or_introl eq_refl)). pose proof (table_get false models W Rd labels Lab (fun d c => flux_at models g energy false d c) d m [] Hd Hr (or_introl eq_refl)) as G.
      fold mapping reps kvs fns in G. cbn [flux_key] in G. apply get_in in G. unfold fd. apply in_map_iff. exists (d, flux_at models g energy false d []). auto. }
    rewrite G. change (Some (map (fun x => x * h) (map (fun p => flux energy (m_total m (puts p params)) g) rows)) = Some (map (fun p => flux energy (m_total m (puts p params)) g * h) rows)). now rewrite map_map.
  - intros d Hr Hk. assert (G : get (puts pd fd) d = None).
    { rewrite get_puts_absent by (now rewrite Kf). apply get_none_iff. unfold pd. rewrite map_map. cbn [fst]. now rewrite map_id. }
    unfold scale_all. clear - G. generalize dependent (puts pd fd). intros t. induction t as [|[n v] t IH]; [reflexivity|]. cbn. destruct (str_eqb d n); [discriminate|exact IH].
  - intros k Hr Hk Def. exists (map (fun p => match get p k with Some x => x | None => 0 end) rows). split.
    + rewrite At, get_puts_absent by (now rewrite Kf). unfold pd. rewrite (get_map_fst (fun k => map (fun p : dict R => match get p k with Some x => x | None => 0 end) rows)) by exact Hk. reflexivity.
    + rewrite map_map. apply map_ext_in. intros p Hp. specialize (Def p Hp). destruct (get p k); [reflexivity|easy].
Qed.
Print Assumptions C85_dist.
Example C85_dist_ex : forall sf se_of minos h, exists models r, sound_models models /\ In (s2l "b") (map fst models) /\
  intensity_ci sf models [(s2l "n", 1)] se_of minos (Some [[(s2l "n", 1)]; [(s2l "n", 2)]]) [1; 2] false (1 / 2) h MBoot false [] = Ok r /\
  get (i_dist r) (s2l "b") = None /\ at2 (i_dist r) (s2l "n") [] = Some [1 * h; 2 * h].
Proof.
  intros sf se_of minos h. set (m := {| m_id := 0; m_total := constant 3; m_parts := [] |}). exists [(s2l "a", m); (s2l "b", m)].
  assert (W : sound_models [(s2l "a", m); (s2l "b", m)]).
  { split; [repeat constructor; cbn; intuition discriminate|]. split; [intros d m' [E|[E|[]]]; injection E as <- <-; constructor|]. intros d m1 d' m2 [E|[E|[]]] [E'|[E'|[]]] _; injection E as <- <-; injection E' as <- <-; reflexivity. }
  destruct (C85_defined sf [(s2l "a", m); (s2l "b", m)] [(s2l "n", 1)] se_of minos (Some [[(s2l "n", 1)]; [(s2l "n", 2)]]) [1; 2] false (1 / 2) (1 / 2) h MBoot false [] W) as (r & Hr); [discriminate|apply half_cl|lra|discriminate|right; eauto|].
  exists r. split; [exact W|]. split; [right; now left|]. split; [exact Hr|]. destruct (C85_dist _ _ _ _ _ _ _ _ _ _ _ _ W Hr) as (_ & A & B). split.
  - apply A; cbn; intuition discriminate.
  - destruct (B (s2l "n")) as (v & E & Ev); [cbn; intuition discriminate|now left|intros p [<-|[<-|[]]]; discriminate|]. cbn in Ev. destruct v as [|a [|b [|]]]; try discriminate. injection Ev as -> ->. exact E.
Qed.

(** ** luminosity and isotropic energy *)
(** the grid of the fit's method is the grid of the model's method: both spread the redshifted band *)
Lemma rest_grid_eq log emin emax z n : 1 + z <> 0 -> rest_grid log emin emax z n = mk_grid log (emin / (1 + z)) (emax / (1 + z)) n.
Proof.
  intros Hz. unfold rest_grid, mk_grid. destruct log; [unfold geomspace|unfold linspace]; rewrite map_map; apply map_ext; intros i.
  - replace (emax / (1 + z) / (emin / (1 + z))) with (emax / emin); [field; exact Hz|]. unfold Rdiv. rewrite Rinv_mult. destruct (Req_dec emin 0) as [->|]; [rewrite Rinv_0; ring|field; auto].
  - unfold Rdiv. ring.
Qed.
(** the luminosity and the isotropic energy of a fit are those of the model at the fitted values: the energy flux of the redshifted band, spread over
    the sphere, and times the duration in the rest frame *)
Theorem C85_lumin : forall sf models mle se_of minos boot cl method comps params dl log emin emax z duration n r r', sound_models models -> readable comps models -> -1 < z ->
  intensity_ci sf models mle se_of minos boot (rest_grid log emin emax z n) true cl (lumin_factor dl z) method comps params = Ok r ->
  intensity_ci sf models mle se_of minos boot (rest_grid log emin emax z n) true cl (eiso_factor dl z duration) method comps params = Ok r' ->
  forall d m c S, In (d, m) models -> component comps m c S ->
  at2 (i_mle r) d c = Some (model_lumin dl log (S (puts mle params)) emin emax z n) /\ at2 (i_mle r') d c = Some (model_eiso dl log (S (puts mle params)) emin emax z duration n).
Proof.
  intros sf models mle se_of minos boot cl method comps params dl log emin emax z duration n r r' W Rd Hz H H' d m c S Hd Hc.
  destruct (C85_value _ _ _ _ _ _ _ _ _ _ _ _ _ _ W Rd H) as (_ & V). destruct (C85_value _ _ _ _ _ _ _ _ _ _ _ _ _ _ W Rd H') as (_ & V').
  destruct (V d m c S Hd Hc) as (lo & hi & A & _). destruct (V' d m c S Hd Hc) as (lo' & hi' & A' & _). rewrite A, A', rest_grid_eq by lra. unfold model_eiso, model_lumin, lumin_factor, eiso_factor. split; f_equal; ring.
Qed.
Print Assumptions C85_lumin.
(** luminosity, from first principles: the photons of energy E received from redshift z were emitted with (1 + z) E; received power per area, times the
    area of the sphere.  For a spectrum whose counts scale like a power law of index G, this is the observed flux in the same band times 4 pi d^2 (1 + z)^(G - 2) *)
Definition scaled (k : R) (g : list R) : list R := map (fun e => e * k) g.
Lemma emid_scaled k g : 0 < k -> emid (scaled k g) = map (fun e => e * k) (emid g).
Proof.
  intros Hk. induction g as [|a [|b g] IH]; [reflexivity|reflexivity|]. cbn [scaled map emid]. f_equal; [|exact IH]. replace (a * k * (b * k)) with (a * b * (k * k)) by ring.
  destruct (Rle_dec 0 (a * b)) as [P|P]; [rewrite sqrt_mult by nra; now rewrite sqrt_square by lra|]. rewrite !sqrt_neg_0 by nra. ring.
Qed.
Lemma diff_scaled k g : diff (scaled k g) = map (fun e => e * k) (diff g).
Proof. induction g as [|a [|b g] IH]; [reflexivity|reflexivity|]. cbn [scaled map diff]. f_equal; [ring|exact IH]. Qed.
Lemma mk_grid_pos log a b n : 0 < a -> a <= b -> Forall (fun e => 0 < e) (mk_grid log a b n).
Proof.
  intros Ha Hab. apply Forall_forall. intros x Hx. unfold mk_grid in Hx. destruct log; apply in_map_iff in Hx as (i & <- & Hi).
  - apply Rmult_lt_0_compat; [exact Ha|apply exp_pos].
  - apply in_seq in Hi. assert (0 <= INR i * ((b - a) / INR (n - 1))); [|lra]. apply Rmult_le_pos; [apply pos_INR|]. destruct (n - 1)%nat as [|j] eqn:E; [cbn; unfold Rdiv; rewrite Rinv_0; lra|].
    apply Rmult_le_pos; [lra|]. left. apply Rinv_0_lt_compat, lt_0_INR. lia.
Qed.
Theorem C85_k_correction : forall dl log f emin emax z n index, -1 < z -> 0 < emin -> emin <= emax ->
  (forall k g, 0 < k -> Forall (fun e => 0 < e) g -> f (scaled k g) = map (fun x => x * Rpower k (1 - index)) (f g)) ->
  model_lumin dl log f emin emax z n = 4 * PI * (dl z * dl z) * Rpower (1 + z) (index - 2) * flux true f (mk_grid log emin emax n).
Proof.
  intros dl log f emin emax z n index Hz Ha Hab Hf. unfold model_lumin. set (g := mk_grid log emin emax n). set (k := / (1 + z)). assert (Hk : 0 < k) by (apply Rinv_0_lt_compat; lra).
  assert (E : mk_grid log (emin / (1 + z)) (emax / (1 + z)) n = scaled k g) by (rewrite <- rest_grid_eq by lra; reflexivity). rewrite E.
  assert (F : flux true f (scaled k g) = Rpower k (2 - index) * flux true f g).
  { unfold flux, ene, ne. rewrite Hf by (auto; now apply mk_grid_pos). rewrite emid_scaled by exact Hk. rewrite diff_scaled.
    assert (P2 : Rpower k (2 - index) = k * Rpower k (1 - index)) by (rewrite <- (Rpower_1 k) at 2 by exact Hk; rewrite <- Rpower_plus; f_equal; ring).
    rewrite P2. generalize (Rpower k (1 - index)). intros w. generalize (emid g) (diff g) (f g). clear - Hk. intros e d. revert e. induction d as [|y d IH]; intros e x.
    - cbn [map]. destruct (map _ x), (map _ (map _ e)), x, (map (Rmult keV_to_erg) e); cbn; unfold rsum; cbn; ring.
    - destruct e as [|u e]; [cbn; unfold rsum; cbn; ring|]. destruct x as [|v x]; [cbn; unfold rsum; cbn; ring|]. cbn [map map2]. unfold rsum in *. cbn [fold_right]. rewrite IH. rewrite Rmult_plus_distr_l. f_equal.
      destruct (Req_dec y 0) as [->|Hy]; [ring|field; split; lra]. }
  rewrite F. replace (Rpower k (2 - index)) with (Rpower (1 + z) (index - 2)); [ring|]. unfold k, Rpower. rewrite ln_Rinv by lra. f_equal. ring.
Qed.
Print Assumptions C85_k_correction.
(** a power law met by this: the trapezoidal counts of E^-G *)
Example C85_k_correction_ex : forall index k g, 0 < k -> Forall (fun e => 0 < e) g ->
  trapz true (fun e => Rpower e (- index)) (scaled k g) = map (fun x => x * Rpower k (1 - index)) (trapz true (fun e => Rpower e (- index)) g).
Proof.
  intros index k g Hk P. assert (P1 : Rpower k (1 - index) = k * Rpower k (- index)) by (rewrite <- (Rpower_1 k) at 2 by exact Hk; rewrite <- Rpower_plus; f_equal).
  induction g as [|a [|b g] IH]; [reflexivity|reflexivity|]. inversion P as [|? ? Pa Pr]; subst. inversion Pr as [|? ? Pb _]; subst. cbn [scaled map trapz]. f_equal; [|exact (IH Pr)].
  rewrite P1, <- !Rpower_mult_distr by assumption. ring.
Qed.

(** ** posterior intensities *)
Lemma tree_map_inv {V W} (f : V -> res W) t u d c x : tree_map f t = Ok u -> at2 t d c = Some x -> exists y, f x = Ok y /\ at2 u d c = Some y.
Proof.
  intros H G. unfold tree_map in H. unfold at2 in G. revert u H. induction t as [|[d' l] t IH]; intros u H; [discriminate|]. cbn [mapE fst snd] in H. apply bind_ok in H as (e & He & H). apply bind_ok in H as (u' & Hu & H). injection H as <-.
  apply bind_ok in He as (l' & Hl & He). injection He as <-. unfold at2 in *. cbn [get] in *. destruct (str_eqb d d') eqn:Ed; [|now apply IH]. clear - Hl G.
  revert l' Hl. induction l as [|[c' v] l IH]; intros l' Hl; [discriminate|]. cbn [mapE fst snd] in Hl. apply bind_ok in Hl as (e & He & Hl). apply bind_ok in Hl as (m & Hm & Hl). injection Hl as <-. apply bind_ok in He as (y & Hy & He). injection He as <-.
  cbn [get] in *. destruct (str_eqb c c'); [injection G as ->; eauto|now apply IH].
Qed.
(** for every data and component: mean, standard deviation, median and central interval of the fluxes at the posterior samples, the user's values put in *)
Theorem C85_posterior : forall sf, tail_probability sf -> forall models rows g energy cl h comps params r, sound_models models ->
  posterior_ci sf models rows g energy cl h comps params = Ok r -> forall d m c S, In (d, m) models -> component comps m c S ->
  let v := map (fun p => flux energy (S (puts p params)) g) rows in exists med lo hi,
  at2 (pi_dist r) d c = Some (map (fun x => x * h) v) /\ at2 (pi_mean r) d c = Some (mean v * h) /\ at2 (pi_std r) d c = Some (sqrt (mean (map (fun x => (x - mean v) * (x - mean v)) v)) * h) /\
  at2 (pi_median r) d c = Some (med * h) /\ at2 (pi_intervals r) d c = Some (lo * h, hi * h) /\ at2 (pi_errors r) d c = Some ((lo - med) * h, (hi - med) * h) /\
  quantile v (1 / 2) = Ok med /\ central v (pi_cl r) lo hi /\ lo <= med <= hi /\ to_unit_cl sf cl = Ok (pi_cl r).
Proof.
  intros sf T models rows g energy cl h comps params r W H d m c S Hd Hc v. unfold posterior_ci in H. apply bind_ok in H as (cl' & Hcl & H). apply bind_ok in H as (dist & Hdist & H). apply bind_ok in H as (median & Hmed & H).
  apply bind_ok in H as (iv & Hiv & H). apply bind_ok in H as (mn & Hmn & H). apply bind_ok in H as (sd & Hsd & H). apply bind_ok in H as (er & Her & H). injection H as <-. cbn [pi_dist pi_mean pi_std pi_median pi_intervals pi_errors pi_cl].
  assert (G : at2 dist d c = Some v).
  { unfold post_dist in Hdist. destruct rows as [|p0 rows]; [discriminate|]. set (rs := p0 :: rows) in *. apply bind_ok in Hdist as (f & Hf & E). injection E as <-. pose proof (flux_fn_inv _ _ _ _ _ _ Hf) as L. rewrite flux_fn_eq in Hf by assumption. injection Hf as <-.
    apply component_in in Hc as HcS. unfold at2. rewrite (get_nodup _ d (map (fun x : str * R => (fst x, map (fun p => flux_at models g energy comps d (fst x) (puts p params)) rs)) (map (fun c : str * (dict R -> spectrum) => (fst c, flux energy (snd c (puts p0 params)) g)) (parts_of comps m)))).
    - apply get_nodup; [rewrite !map_map; eapply parts_nodup; eauto|]. apply in_map_iff. exists (c, flux energy (S (puts p0 params)) g). split; [|apply in_map_iff; exists (c, S); auto]. cbn [fst]. rewrite (flux_at_eq g energy comps models d m c S W L Hd HcS). reflexivity.
    - unfold fluxes. rewrite !map_map. apply W.
    - apply in_map_iff. exists (d, map (fun c : str * (dict R -> spectrum) => (fst c, flux energy (snd c (puts p0 params)) g)) (parts_of comps m)). split; [reflexivity|]. unfold fluxes. apply in_map_iff. exists (d, m). auto. }
  destruct (tree_map_inv _ _ _ _ _ _ Hmed G) as (med & Q & Gm). destruct (tree_map_inv _ _ _ _ _ _ Hiv G) as ([lo hi] & Qi & Gi). destruct (tree_map_inv _ _ _ _ _ _ Hmn G) as (mu & Qm & Gmn). destruct (tree_map_inv _ _ _ _ _ _ Hsd G) as (s & Qs & Gs). destruct (tree_map_inv _ _ _ _ _ _ Her G) as ([e1 e2] & Qe & Ge).
  injection Qm as <-. injection Qs as <-. apply bind_ok in Qi as (lo' & Q1 & Qi). apply bind_ok in Qi as (hi' & Q2 & Qi). injection Qi as -> ->. rewrite Q in Qe. cbn [bind] in Qe. rewrite Q1 in Qe. cbn [bind] in Qe. rewrite Q2 in Qe. cbn [bind] in Qe. injection Qe as <- <-.
  exists med, lo, hi. rewrite !at2_scale, G, Gm, Gi, Gmn, Gs, Ge. do 6 (split; [reflexivity|]).
  assert (Hp : 0 < cl' < 1). { destruct (Rle_dec cl 0) as [L|L]; [destruct (C52_levels sf T cl) as (X & _); destruct (X L) as (e & Xe); congruence|]. destruct (C52_levels sf T cl) as (_ & _ & _ & X). destruct (X ltac:(lra)) as (p & Ep & Hp & _). congruence. }
  replace (1 / 2) with 0.5 by lra. split; [exact Q|]. replace (0.5 - cl' / 2) with ((1 - cl') / 2) in Q1 by lra. replace (0.5 + cl' / 2) with ((1 + cl') / 2) in Q2 by lra. destruct (central_of v cl' lo hi Hp Q1 Q2) as (Ce & _). split; [exact Ce|].
  split; [split; [eapply quantile_mono; [exact Q1|exact Q|lra]|eapply quantile_mono; [exact Q|exact Q2|lra]]|exact Hcl].
Qed.
Print Assumptions C85_posterior.
Example C85_posterior_ex : forall sf, exists m r, posterior_ci sf [(s2l "a", m)] [[(s2l "n", 1)]] [1; 2] false (1 / 2) 1 false [] = Ok r.
Proof.
  intros sf. exists {| m_id := 0; m_total := constant 3; m_parts := [] |}. unfold posterior_ci. rewrite half_cl. cbn [bind]. unfold post_dist. cbn [flux_fn mapE model_flux bind fst snd map].
  unfold tree_map. cbn [mapE fst snd]. set (v := [_]).
  destruct (quantile_defined v 0.5) as (a & Ea); [discriminate|lra|]. destruct (quantile_defined v (0.5 - 1 / 2 / 2)) as (b & Eb); [discriminate|lra|]. destruct (quantile_defined v (0.5 + 1 / 2 / 2)) as (c & Ec); [discriminate|lra|].
  rewrite !Ea. cbn [bind]. rewrite !Eb. cbn [bind]. rewrite !Ec. cbn [bind]. eauto.
Qed.
