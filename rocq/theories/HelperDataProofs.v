(** Proofs about HelperData.v. *)
From Coq Require Import Ascii String.
From Verif Require Import RBase Data DataProofs Namespace NamespaceProofs FitInput FitInputProofs HelperData Batch BatchProofs CompileProofs.
From Coq Require Import List.
Open Scope list_scope.

Lemma mapE_inv {A B} (f : A -> res B) l : forall ys, mapE f l = Ok ys -> Forall2 (fun x y => f x = Ok y) l ys.
Proof.
  induction l as [|x l IH]; cbn [mapE]; intros ys H; [injection H as <-; constructor|].
  destruct (f x) as [y|] eqn:E; [|discriminate]. cbn [bind] in H. destruct (mapE f l) as [ys'|]; [|discriminate]. cbn [bind] in H. injection H as <-.
  constructor; auto.
Qed.
Lemma mapE_ok {A B} (f : A -> res B) l ys : Forall2 (fun x y => f x = Ok y) l ys -> mapE f l = Ok ys.
Proof. induction 1 as [|x y l ys E _ IH]; [reflexivity|]. cbn [mapE]. now rewrite E, IH. Qed.
Lemma mapE_map {A B} (f : A -> res B) (g : A -> B) l : (forall x, In x l -> f x = Ok (g x)) -> mapE f l = Ok (map g l).
Proof.
  induction l as [|x l IH]; intros H; [reflexivity|]. cbn [mapE map]. rewrite (H x (or_introl eq_refl)). cbn [bind].
  rewrite IH by (intros; apply H; now right). reflexivity.
Qed.
Lemma F2_impl {A B} (P Q : A -> B -> Prop) l l' : (forall x y, P x y -> Q x y) -> Forall2 P l l' -> Forall2 Q l l'.
Proof. intros H; induction 1; constructor; auto. Qed.
Lemma F2_in_r {A B} (P : A -> B -> Prop) l l' y : Forall2 P l l' -> In y l' -> exists x, In x l /\ P x y.
Proof. induction 1 as [|a b l l' Hab _ IH]; intros []; [subst; exists a; split; [now left|assumption]|]. destruct IH as (x & Hx & Hp); auto. exists x. split; [now right|exact Hp]. Qed.
Lemma F2_in_l {A B} (P : A -> B -> Prop) l l' x : Forall2 P l l' -> In x l -> exists y, In y l' /\ P x y.
Proof. induction 1 as [|a b l l' Hab _ IH]; intros []; [subst; exists b; split; [now left|assumption]|]. destruct IH as (y & Hx & Hp); auto. exists y. split; [now right|exact Hp]. Qed.
Lemma zip2_map_l {A B C D} (f : B -> C -> D) (g : A -> B) l : forall l', zip2 f (map g l) l' = zip2 (fun x => f (g x)) l l'.
Proof. unfold zip2. induction l as [|x l IH]; intros [|y l']; cbn; try reflexivity. f_equal. apply IH. Qed.

(** ** names *)
Lemma on_name_inj a b : on_name a = on_name b -> a = b.
Proof. unfold on_name. apply app_inv_tail. Qed.
Lemma off_name_inj a b : off_name a = off_name b -> a = b.
Proof. unfold off_name. apply app_inv_tail. Qed.
Lemma last_app {A} (l m : list A) d : m <> [] -> last (l ++ m) d = last m d.
Proof. intros H. induction l as [|x l IH]; [reflexivity|]. cbn [List.app]. destruct (l ++ m) as [|y t] eqn:E; [destruct l, m; easy|]. rewrite <- E in *. cbn [last]. rewrite E. rewrite <- E. exact IH. Qed.
Lemma last_on a : last (on_name a) zero = "n"%char. Proof. unfold on_name. rewrite last_app by discriminate. reflexivity. Qed.
Lemma last_off a : last (off_name a) zero = "f"%char. Proof. unfold off_name. rewrite last_app by discriminate. reflexivity. Qed.
Lemma on_not_off a b : on_name a <> off_name b.
Proof. intros E. apply (f_equal (fun x => last x zero)) in E. rewrite last_on, last_off in E. discriminate. Qed.
Lemma on_not_key a : on_name a <> total_key /\ on_name a <> channels_key.
Proof. split; intros E; apply (f_equal (fun x => last x zero)) in E; rewrite last_on in E; discriminate. Qed.
Lemma off_not_key a : off_name a <> total_key /\ off_name a <> channels_key.
Proof. split; intros E; apply (f_equal (fun x => last x zero)) in E; rewrite last_off in E; discriminate. Qed.
Lemma NoDup_map_inj {A B} (f : A -> B) l : (forall x y, f x = f y -> x = y) -> NoDup l -> NoDup (map f l).
Proof.
  intros H; induction 1 as [|x l Hx _ IH]; cbn; constructor; [|exact IH]. intros Hin. apply in_map_iff in Hin as (y & E & Hy). apply H in E. now subst.
Qed.
Lemma NoDup_map_filter {A B} (f : A -> B) (p : A -> bool) l : NoDup (map f l) -> NoDup (map f (filter p l)).
Proof.
  induction l as [|x l IH]; cbn; intros H; [constructor|]. inversion H as [|? ? Hx Hl]; subst. destruct (p x); [|auto]. cbn. constructor; [|auto].
  intros Hin. apply Hx. apply in_map_iff in Hin as (y & E & Hy). apply filter_In in Hy as [Hy _]. apply in_map_iff. now exists y.
Qed.

(** ** dictionaries *)
Lemma get_none_iff {V} (d : dict V) k : get d k = None <-> ~ In k (map fst d).
Proof.
  induction d as [|[k' v] d IH]; cbn [get map fst]; [split; [intros _ []|reflexivity]|]. destruct (str_eqb_spec k k') as [->|N].
  - split; [discriminate|]. intros H; exfalso; apply H; now left.
  - rewrite IH. cbn. split; [intros H [E|E]; [now subst|tauto]|tauto].
Qed.
Lemma get_some_iff {V} (d : dict V) k : In k (map fst d) <-> exists v, get d k = Some v.
Proof.
  destruct (get d k) as [v|] eqn:E.
  - split; [eauto|]. intros _. apply get_in in E. apply in_map_iff. now exists (k, v).
  - split; [intros H; apply get_none_iff in E; easy|]. intros [v H]; discriminate.
Qed.
Lemma puts_keys {V} kvs : forall (d : dict V) k, In k (map fst (puts d kvs)) <-> In k (map fst d) \/ In k (map fst kvs).
Proof.
  induction kvs as [|[k' v] kvs IH]; intros d k; cbn [puts fold_left map fst].
  - cbn. tauto.
  - change (In k (map fst (puts (put d k' v) kvs)) <-> In k (map fst d) \/ In k (k' :: map fst kvs)). rewrite IH. cbn [In].
    assert (P : In k (map fst (put d k' v)) <-> In k (map fst d) \/ k' = k).
    { rewrite !get_some_iff. rewrite get_put. destruct (str_eqb_spec k k') as [->|N].
      - split; [intros _; now right|intros _; eauto].
      - split; [tauto|intros [H|H]; [exact H|exfalso; apply N; now symmetry]]. }
    rewrite P. tauto.
Qed.
Lemma same_names_iff a b : same_names a b = true <-> forall k, In k a <-> In k b.
Proof.
  unfold same_names. rewrite andb_true_iff, !forallb_forall. split.
  - intros [H1 H2] k. split; intros H; [apply str_in_spec, H1|apply str_in_spec, H2]; exact H.
  - intros H. split; intros k Hk; apply str_in_spec; now apply H.
Qed.

Section Counts.
Variables (data : dict fdata) (stats : dict stat).
Hypothesis N : NoDup (map fst data).
Definition net_of (counts : dict (list R)) (e : str * fdata) : list R :=
  match get counts (on_name (fst e)) with
  | None => []
  | Some on => match back_ratio stats (fst e) (snd e), get counts (off_name (fst e)) with
               | Some r, Some off => zip2 Rminus on (zip2 Rmult r off)
               | _, _ => on
               end
  end.
Lemma zip_pairs {B C} (f : str * fdata -> B -> C) (g : str * fdata -> B) l : zip2 f l (map g l) = map (fun e => f e (g e)) l.
Proof. unfold zip2. induction l as [|x l IH]; [reflexivity|]. cbn. now rewrite IH. Qed.
Lemma counts_data_spec counts : (forall n, In n (map fst counts) <-> In n (on_names data ++ off_names data stats)) ->
  exists out, get_counts_data data stats counts = Ok out /\
  (forall e, In e data -> fst e <> channels_key -> fst e <> total_key -> get out (fst e) = Some (zip2 Rmult (net_of counts e) (spec_unit (snd e)))) /\
  (forall j, In j (on_names data ++ off_names data stats) -> ~ In j (map fst data) -> get out j = get counts j) /\
  get out channels_key = Some (concat (map (fun e => zip2 Rmult (net_of counts e) (spec_unit (snd e))) data)) /\
  get out total_key = Some [rsum (map (fun e => rsum (net_of counts e)) data)].
Proof.
  intros H. unfold get_counts_data. rewrite (proj2 (same_names_iff _ _) H). cbn [negb].
  assert (G : forall n, In n (on_names data ++ off_names data stats) -> exists v, get counts n = Some v) by (intros n Hn; apply get_some_iff; now apply H).
  set (val := fun n => match get counts n with Some v => v | None => [] end).
  assert (Q : forall l, incl l (on_names data ++ off_names data stats) ->
    mapE (fun n => bind (opt_err KeyError (get counts n)) (fun v => Ok (n, v))) l = Ok (map (fun n => (n, val n)) l)).
  { intros l Hl. apply mapE_map. intros n Hn. unfold val. destruct (G n (Hl n Hn)) as [v ->]. reflexivity. }
  rewrite (Q (on_names data)) by (intros x Hx; apply in_or_app; now left). cbn [bind].
  rewrite (Q (off_names data stats)) by (intros x Hx; apply in_or_app; now right). cbn [bind].
  assert (En : mapE (net_counts stats counts) data = Ok (map (net_of counts) data)).
  { apply mapE_map. intros e He. unfold net_counts, net_of. destruct (G (on_name (fst e))) as [v ->].
    - apply in_or_app. left. unfold on_names. apply in_map_iff. now exists e.
    - reflexivity. }
  rewrite En. cbn [bind]. rewrite zip_pairs.
  set (base := puts (puts [] (map (fun n => (n, val n)) (on_names data))) (map (fun n => (n, val n)) (off_names data stats))).
  set (netl := map (fun e => (fst e, zip2 Rmult (net_of counts e) (spec_unit (snd e)))) data).
  assert (Kn : map fst netl = map fst data) by (unfold netl; rewrite map_map; reflexivity).
  assert (Gd : forall e, In e data -> get (puts base netl) (fst e) = Some (zip2 Rmult (net_of counts e) (spec_unit (snd e)))).
  { intros e He. apply get_puts; [rewrite Kn; exact N|]. unfold netl. apply in_map_iff. now exists e. }
  assert (Er : mapE (fun e => opt_err KeyError (get (puts base netl) (fst e))) data = Ok (map (fun e => zip2 Rmult (net_of counts e) (spec_unit (snd e))) data)).
  { apply mapE_map. intros e He. rewrite (Gd e He). reflexivity. }
  rewrite Er. cbn [bind]. eexists. split; [reflexivity|]. split; [|split; [|split]].
  - intros e He N1 N2. rewrite !get_put. destruct (str_eqb_spec (fst e) total_key); [easy|]. destruct (str_eqb_spec (fst e) channels_key); [easy|]. now apply Gd.
  - intros j Hj Nj. assert (Kj : j <> total_key /\ j <> channels_key).
    { apply in_app_or in Hj as [Hj|Hj]; [unfold on_names in Hj|unfold off_names in Hj]; apply in_map_iff in Hj as (e & <- & _); [apply on_not_key|apply off_not_key]. }
    rewrite !get_put. destruct (str_eqb_spec j total_key); [easy|]. destruct (str_eqb_spec j channels_key); [easy|].
    rewrite get_puts_absent by (rewrite Kn; exact Nj). destruct (G j Hj) as [v Hv].
    assert (Ndon : NoDup (on_names data)) by (unfold on_names; rewrite <- map_map; apply NoDup_map_inj; [exact on_name_inj|exact N]).
    assert (Ndoff : NoDup (off_names data stats)).
    { unfold off_names. rewrite <- map_map. apply NoDup_map_inj; [exact off_name_inj|]. now apply NoDup_map_filter. }
    assert (Kf : forall l, map fst (map (fun n => (n, val n)) l) = l) by (intros l; rewrite map_map; cbn; apply map_id).
    unfold base. destruct (in_dec str_eq_dec j (off_names data stats)) as [I|I].
    + rewrite (get_puts j (val j)); [unfold val; now rewrite Hv|rewrite Kf; exact Ndoff|]. apply in_map_iff. now exists j.
    + rewrite get_puts_absent by (rewrite Kf; exact I). rewrite (get_puts j (val j)); [unfold val; now rewrite Hv|rewrite Kf; exact Ndon|].
      apply in_map_iff. exists j. split; [reflexivity|]. apply in_app_or in Hj as [Hj|Hj]; [exact Hj|easy].
  - rewrite !get_put. reflexivity.
  - rewrite get_put. cbn. rewrite map_map. reflexivity.
Qed.
End Counts.
