From Coq Require Import Ascii String.
From Verif Require Import RBase Data Namespace NamespaceProofs FitInput.
From Coq Require Import List.
Open Scope list_scope.

(** ** Specification vocabulary *)
(** the user gave the objects [l]: one object alone, or a non-empty sequence *)
Definition given {A} (a : arg A) (l : list A) : Prop := (exists x, a = One x /\ l = [x]) \/ (a = Many (map Some l) /\ l <> []).
(** one value for all data sets, or one each *)
Definition spread {A} (l : list A) (n : nat) (l' : list A) : Prop := (exists x, l = [x] /\ l' = repeat x n) \/ (length l = n /\ l' = l).
(** when a statistic is meaningful for a data set *)
Definition suitable (d : fdata) (s : stat) : Prop :=
  match s with
  | Chi2 => Forall (fun e => e <> 0) (f_net_errors d)
  | Cstat => f_poisson d = true /\ f_back d = None
  | Pstat => f_poisson d = true /\ f_back d <> None
  | Pgstat => f_poisson d = true /\ exists b, f_back d = Some b /\ Forall (fun e => e <> 0) (fb_errors b)
  | Wstat => f_poisson d = true /\ exists b, f_back d = Some b /\ fb_poisson b = true
  end.

Lemma Forall2_length {A B} (P : A -> B -> Prop) l l' : Forall2 P l l' -> length l = length l'.
Proof. induction 1; cbn; congruence. Qed.
Lemma has_zero_spec l : has_zero l = false <-> Forall (fun e => e <> 0) l.
Proof.
  unfold has_zero. induction l as [|x l IH]; cbn; [split; constructor|]. rewrite Forall_cons_iff, orb_false_iff, IH.
  destruct (Reqb_spec x 0); split; intros [A B]; split; auto; easy.
Qed.
Lemma check_stat_spec d s : check_stat d s = Ok tt <-> suitable d s.
Proof.
  unfold check_stat, suitable. destruct s, (f_poisson d) eqn:Ep; cbn [negb spec_normal andb].
  - rewrite <- has_zero_spec. destruct (has_zero _); split; congruence.
  - rewrite <- has_zero_spec. destruct (has_zero _); split; congruence.
  - destruct (f_back d); cbn [is_some]; split; try congruence; try tauto. intros [_ H]; discriminate.
  - split; [discriminate|intros [H _]; discriminate].
  - destruct (f_back d); cbn [is_some]; split; try congruence; try tauto; try (intros _; split; [reflexivity|discriminate]).
  - split; [discriminate|intros [H _]; discriminate].
  - destruct (f_back d) as [b|]; [|split; [discriminate|intros (_ & b & H & _); discriminate]]. destruct (has_zero (fb_errors b)) eqn:E.
    + split; [discriminate|]. intros (_ & b' & H & F). injection H as <-. apply has_zero_spec in F. congruence.
    + split; [|easy]. intros _. split; [reflexivity|]. exists b. split; [reflexivity|]. now apply has_zero_spec.
  - split; [discriminate|intros [H _]; discriminate].
  - destruct (f_back d) as [b|]; [|split; [discriminate|intros (_ & b & H & _); discriminate]]. destruct (fb_poisson b) eqn:E.
    + split; [|easy]. intros _. split; [reflexivity|]. now exists b.
    + split; [discriminate|]. intros (_ & b' & H & F). injection H as <-. congruence.
  - split; [discriminate|intros [H _]; discriminate].
Qed.
Lemma check_stat_unit d s x : check_stat d s = Ok x -> x = tt. Proof. now destruct x. Qed.
Lemma check_all_spec ds ss : length ds = length ss -> (check_all (combine ds ss) = Ok tt <-> Forall2 suitable ds ss).
Proof.
  revert ss. induction ds as [|d ds IH]; intros [|s ss] H; try discriminate; cbn [combine check_all].
  - split; [constructor|reflexivity].
  - injection H as H. specialize (IH ss H). destruct (check_stat d s) as [[]|e] eqn:E; cbn [bind].
    + rewrite IH. split; [intros F; constructor; [now apply check_stat_spec|exact F]|intros F; now inversion F].
    + split; [discriminate|]. intros F. inversion F as [|? ? ? ? G ?]. apply check_stat_spec in G. congruence.
Qed.
Lemma get_list_spec {A} (a : arg A) l : get_list a = Ok l <-> given a l.
Proof.
  assert (S : forall l0 : list (option A), forallb is_some l0 = true -> map Some (flat_map (fun o => match o with Some x => [x] | None => [] end) l0) = l0).
  { induction l0 as [|[x|] l0 IH]; cbn; try discriminate; [reflexivity|]. intros H. now rewrite (IH H). }
  assert (T : forall l : list A, forallb is_some (map Some l) = true /\ flat_map (fun o : option A => match o with Some x => [x] | None => [] end) (map Some l) = l).
  { induction l0 as [|x l0 [IH1 IH2]]; [now split|]. cbn. rewrite IH1, IH2. now split. }
  destruct a as [x|l0|]; cbn [get_list].
  - split; [intros H; injection H as <-; left; eauto|]. intros [(y & E & ->)|(E & _)]; [now injection E as ->|discriminate].
  - split.
    + intros H. right. destruct l0 as [|o l0]; [discriminate|]. destruct (forallb is_some (o :: l0)) eqn:E; [|discriminate]. injection H as <-. split.
      * f_equal. symmetry. exact (S (o :: l0) E).
      * destruct o; [cbn; discriminate|discriminate].
    + intros [(y & E & _)|(E & N)]; [discriminate|]. injection E as ->. destruct (T l) as [T1 T2]. rewrite T1, T2. destruct l; [now destruct N|reflexivity].
  - split; [discriminate|]. intros [(y & E & _)|(E & _)]; discriminate.
Qed.
Lemma broadcast_spec {A} (l : list A) n l' : (0 < n)%nat -> (broadcast l n = Ok l' <-> spread l n l').
Proof.
  intros Hn. unfold broadcast, spread. destruct l as [|x [|y l]].
  - cbn [length]. destruct (Nat.eqb_spec 0 n); [lia|]. split; [discriminate|]. intros [(x & E & _)|[E _]]; [discriminate|contradiction].
  - split; [intros H; injection H as <-; left; eauto|]. intros [(z & E & ->)|[E ->]]; [now injection E as ->|]. cbn in E. subst n. reflexivity.
  - destruct (Nat.eqb_spec (length (x :: y :: l)) n) as [E|E]; (split; [intros H|intros [(z & F & _)|[F ->]]]); try discriminate; try reflexivity; try contradiction.
    injection H as <-. now right.
Qed.
Lemma str_in_spec x l : str_in x l = true <-> In x l.
Proof.
  unfold str_in. rewrite existsb_exists. split; [intros (y & H & E); destruct (str_eqb_spec x y); [now subst|discriminate]|].
  intros H. exists x. split; [exact H|]. now destruct (str_eqb_spec x x).
Qed.
Lemma nodupb_spec l : nodupb l = true <-> NoDup l.
Proof.
  induction l as [|x l IH]; cbn [nodupb]; [split; [constructor|reflexivity]|]. rewrite andb_true_iff, IH, negb_true_iff. split.
  - intros [A B]. constructor; [|exact B]. intros H. apply str_in_spec in H. congruence.
  - intros H. inversion H as [|? ? A B]. split; [|exact B]. destruct (str_in x l) eqn:E; [|reflexivity]. now apply str_in_spec in E.
Qed.
Lemma parse_stat_spec w s : parse_stat w = Some s <-> w = stat_name s.
Proof.
  split.
  - intros H. apply find_some in H as [_ H]. now destruct (str_eqb_spec w (stat_name s)).
  - intros ->. now destruct s.
Qed.
Lemma parse_all ws : forall ss,
  (forallb is_some (map parse_stat ws) = true /\ flat_map (fun o => match o with Some x => [x] | None => [] end) (map parse_stat ws) = ss)
  <-> Forall2 (fun w s => w = stat_name s) ws ss.
Proof.
  induction ws as [|w ws IH]; intros ss; cbn [map forallb flat_map].
  - split; [intros [_ <-]; constructor|]. intros H. inversion H. now split.
  - destruct (parse_stat w) as [s|] eqn:E; cbn [is_some andb app].
    + split.
      * intros [A <-]. constructor; [now apply parse_stat_spec|]. now apply IH.
      * intros H. inversion H as [|? s' ? ss' E1 F]; subst. apply IH in F as [F1 F2]. split; [exact F1|]. rewrite F2. f_equal.
        assert (parse_stat (stat_name s') = Some s') by now apply parse_stat_spec. congruence.
    + split; [intros [A _]; discriminate|]. intros H. inversion H as [|? s' ? ss' E1 F]; subst. assert (parse_stat (stat_name s') = Some s') by now apply parse_stat_spec. congruence.
Qed.

(** dictionaries *)
Lemma dict_of_get {V} (ks : list str) (vs : list V) i k v : NoDup ks -> nth_error ks i = Some k -> nth_error vs i = Some v ->
  get (dict_of ks vs) k = Some v.
Proof.
  intros N Hk Hv. unfold dict_of.
  assert (G : forall (l : list (str * V)) d, (forall p, In p l -> fst p <> k) -> get (fold_left (fun d p => put d (fst p) (snd p)) l d) k = get d k).
  { clear. induction l as [|p l IH]; intros d H; [reflexivity|]. cbn [fold_left]. rewrite IH by (intros; apply H; now right). rewrite get_put.
    destruct (str_eqb_spec k (fst p)) as [E|]; [|reflexivity]. exfalso. now apply (H p); [left|]. }
  generalize (@nil (str * V)). revert ks vs N Hk Hv. induction i as [|i IH]; intros [|k0 ks] [|v0 vs] N Hk Hv d; try discriminate; cbn in Hk, Hv; cbn [combine fold_left fst snd].
  - injection Hk as ->. injection Hv as ->. inversion N as [|? ? N1 N2]. rewrite G.
    + rewrite get_put. now destruct (str_eqb_spec k k).
    + intros [a b] Hab. cbn. intros ->. apply in_combine_l in Hab. contradiction.
  - inversion N. apply IH; assumption.
Qed.
