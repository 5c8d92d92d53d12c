(** C115: evaluating a compiled model for an array of parameters gives, entry by entry, what evaluating it for each set of parameters gives. *)
From Coq Require Import Ascii String.
From Verif Require Import RBase Data Namespace HelperData BatchEval.
From Coq Require Import List Lia Lra.
Import ListNotations.
Open Scope list_scope.
Open Scope R_scope.

(** ** specification *)
(** [i] is an index of an array of shape [s] *)
Definition in_shape (i s : list nat) : Prop := Forall2 lt i s.
(** [x[i]] *)
Definition slice (i : list nat) (x : nd) : nd := {| sh := skipn (List.length i) (sh x); at_ := fun j => at_ x (i ++ j) |}.
(** the argument that holds only the [i]-th set of parameters *)
Definition arg_at (i : list nat) (a : argument) : argument :=
  match a with
  | AArr x => AArr (slice i x)
  | AMap d => AMap (map (fun e : str * nd => (fst e, slice i (snd e))) d)
  | a => a
  end.
(** the argument holds an array of shape [s] of sets of parameters *)
Definition holds (c : cmodel) (s : list nat) (a : argument) : Prop :=
  match a with
  | AArr x => sh x = s ++ [List.length (c_names c)]
  | AMap d => (exists k id x, In (k, id) (c_all c) /\ get d k = Some x) /\
              forall k id x, In (k, id) (c_all c) -> get d k = Some x -> sh x = s
  | ANone => s = []
  | AOther => False
  end.
(** whether it works and the length of the value depend on which parameters are given, not on their values: the function can be traced *)
Definition traceable (f : list (nat * R) -> res (list R)) : Prop := forall d d', map fst d = map fst d' ->
  match f d, f d' with Ok r, Ok r' => List.length r = List.length r' | Err e, Err e' => e = e' | _, _ => False end.
Definition sound (c : cmodel) (g : list R) : Prop :=
  c_names c <> [] /\ List.length (c_ids c) = List.length (c_names c) /\ c_default c <> [] /\ traceable (c_fn c g) /\
  forall fs, c_comps c = Some fs -> Forall (fun e => traceable (snd e g)) fs.
(** entry [i] of [r] is [ri] *)
Definition agree (s i : list nat) (r ri : nd) : Prop :=
  sh r = s ++ sh ri /\ forall j, in_shape j (sh ri) -> at_ r (i ++ j) = at_ ri j.
(** the outcome for the whole array against those for its entries *)
Definition entrywise (s : list nat) (r : res nd) (single : list nat -> res nd) : Prop :=
  match r with
  | Ok v => forall i, in_shape i s -> exists vi, single i = Ok vi /\ agree s i v vi
  | Err e => forall i, in_shape i s -> single i = Err e
  end.
Definition entrywise_all (s : list nat) (r : res (list (str * nd))) (single : list nat -> res (list (str * nd))) : Prop :=
  match r with
  | Ok v => forall i, in_shape i s -> exists vi, single i = Ok vi /\ Forall2 (fun e ei => fst e = fst ei /\ agree s i (snd e) (snd ei)) v vi
  | Err e => forall i, in_shape i s -> single i = Err e
  end.

(** ** proofs *)
Lemma in_shape_len i s : in_shape i s -> List.length i = List.length s.
Proof. intros H; induction H; cbn; congruence. Qed.
Definition vals_at (i : list nat) (d : list (nat * nd)) : list (nat * R) := map (fun e => (fst e, at_ (snd e) i)) d.
Lemma vals_keys i d : map fst (vals_at i d) = map fst d.
Proof. unfold vals_at. rewrite map_map. reflexivity. Qed.
Lemma slices_vals d k i : vals_at i (slices d k) = vals_at (k :: i) d.
Proof. unfold vals_at, slices. rewrite map_map. reflexivity. Qed.
Lemma slices_keys d k : map fst (slices d k) = map fst d.
Proof. unfold slices. rewrite map_map. reflexivity. Qed.

Lemma mapped_spec f : traceable f -> forall s d, (forall e, In e d -> sh (snd e) = s) -> (s = [] \/ d <> []) ->
  (exists r, mapped f (List.length s) d = Ok r /\ forall i, List.length i = List.length s ->
     exists l, f (vals_at i d) = Ok l /\ sh r = s ++ [List.length l] /\ forall k, at_ r (i ++ [k]) = nth k l 0) \/
  (exists e, mapped f (List.length s) d = Err e /\ forall i, List.length i = List.length s -> f (vals_at i d) = Err e).
Proof.
  intros T. induction s as [|n s IH]; intros d Hs Hne.
  - unfold mapped. cbn [List.length Nat.iter nat_rect]. unfold plain.
    assert (E : forallb (fun e : nat * nd => match sh (snd e) with [] => true | _ => false end) d = true).
    { apply forallb_forall. intros e He. now rewrite (Hs e He). }
    rewrite E. change (map (fun e : nat * nd => (fst e, at_ (snd e) [])) d) with (vals_at [] d).
    destruct (f (vals_at [] d)) as [l|e] eqn:F; cbn [bind]; [left|right].
    + exists (of_list l). split; [reflexivity|]. intros [|] L; [|discriminate]. exists l. split; [exact F|]. split; reflexivity.
    + exists e. split; [reflexivity|]. intros [|] L; [|discriminate]. exact F.
  - destruct Hne as [Hne|Hne]; [discriminate|]. destruct d as [|[k0 x] d0] eqn:Ed; [easy|]. rewrite <- Ed in *. clear Hne.
    assert (M : mapped f (List.length (n :: s)) d = vmap (mapped f (List.length s)) d) by reflexivity. rewrite M. clear M.
    set (F := mapped f (List.length s)) in *.
    assert (Sx : sh x = n :: s) by (apply (Hs (k0, x)); rewrite Ed; now left).
    assert (V : vmap F d = bind (F (slices d 0)) (fun r0 => Ok {| sh := n :: sh r0; at_ := fun i => match i with [] => 0 | k :: j => match F (slices d k) with Ok r => at_ r j | Err _ => 0 end end |})).
    { unfold vmap. rewrite Ed at 1. rewrite Sx.
      assert (E : forallb (fun e : nat * nd => match sh (snd e) with m :: _ => (m =? n)%nat | [] => false end) d = true).
      { apply forallb_forall. intros e He. rewrite (Hs e He). apply Nat.eqb_refl. }
      rewrite E. reflexivity. }
    rewrite V. clear V.
    assert (I : forall k, _) by (intros k; refine (IH (slices d k) _ _);
      [intros e He; unfold slices in He; apply in_map_iff in He; destruct He as (e0 & <- & He0); cbn [snd sub sh]; now rewrite (Hs e0 He0)
      |right; rewrite Ed; discriminate]).
    fold F in I. set (z := repeat 0%nat (List.length s)). assert (Lz : List.length z = List.length s) by apply repeat_length.
    destruct (I 0%nat) as [(r0 & E0 & H0)|(e & E0 & H0)]; rewrite E0; cbn [bind]; [left|right].
    + eexists. split; [reflexivity|]. intros [|k i] L; [discriminate|]. cbn [List.length] in L. injection L as L.
      destruct (H0 z Lz) as (l0 & Fl0 & S0 & _). rewrite slices_vals in Fl0.
      destruct (I k) as [(r & Er & H)|(e & Er & H)].
      * destruct (H i L) as (l & Fl & S & A). rewrite slices_vals in Fl. exists l. split; [exact Fl|].
        pose proof (T (vals_at (0%nat :: z) d) (vals_at (k :: i) d)) as TT. rewrite !vals_keys in TT. specialize (TT eq_refl). rewrite Fl0, Fl in TT.
        split; [cbn [sh]; rewrite S0, TT; reflexivity|]. intros q. cbn [at_ app]. rewrite Er. apply A.
      * specialize (H i L). rewrite slices_vals in H. pose proof (T (vals_at (0%nat :: z) d) (vals_at (k :: i) d)) as TT. rewrite !vals_keys in TT. specialize (TT eq_refl).
        rewrite Fl0, H in TT. destruct TT.
    + exists e. split; [reflexivity|]. intros [|k i] L; [discriminate|]. cbn [List.length] in L. injection L as L.
      specialize (H0 z Lz). rewrite slices_vals in H0. pose proof (T (vals_at (0%nat :: z) d) (vals_at (k :: i) d)) as TT. rewrite !vals_keys in TT. specialize (TT eq_refl).
      rewrite H0 in TT. destruct (f (vals_at (k :: i) d)); [destruct TT|now subst].
Qed.

Lemma shape_eqb_refl s : shape_eqb s s = true.
Proof. induction s as [|x s IH]; cbn; [reflexivity|]. now rewrite Nat.eqb_refl. Qed.
Lemma shape_eqb_eq a b : shape_eqb a b = true -> a = b.
Proof. revert b; induction a as [|x a IH]; intros [|y b] H; cbn in H; try discriminate; [reflexivity|]. apply andb_prop in H. destruct H as (H1 & H2). apply Nat.eqb_eq in H1. now rewrite H1, (IH b H2). Qed.
Lemma check_same c a d s : c_names c <> [] -> to_params c a = Ok d -> d <> [] -> (forall e, In e d -> sh (snd e) = s) -> prepare c a = Ok (List.length s, d).
Proof.
  intros N T D H. unfold prepare. rewrite T. cbn [bind]. destruct (c_names c) as [|n0 ns]; [easy|]. destruct d as [|[k x] r]; [easy|].
  assert (Hx : sh x = s) by (apply (H (k, x)); now left). rewrite Hx.
  assert (E : existsb (fun e : nat * nd => negb (shape_eqb (sh (snd e)) s)) r = false).
  { destruct (existsb _ r) eqn:E; [|reflexivity]. apply existsb_exists in E. destruct E as (e & He & Hn). rewrite (H e) in Hn by (now right). rewrite shape_eqb_refl in Hn. discriminate. }
  now rewrite E.
Qed.
Lemma last_app1 (s : list nat) n : last (s ++ [n]) 0%nat = n.
Proof. now rewrite last_last. Qed.
Lemma get_map_val {V W} (h : V -> W) (d : list (str * V)) k : get (map (fun e : str * V => (fst e, h (snd e))) d) k = option_map h (get d k).
Proof. induction d as [|[k' v] d IH]; [reflexivity|]. cbn [map fst snd]. cbn [get]. destruct (str_eqb k k'); [reflexivity|exact IH]. Qed.

Lemma pick_map (h : nd -> nd) (m : list (str * nd)) (l : list (str * nat)) :
  flat_map (fun kv : str * nat => match get (map (fun e : str * nd => (fst e, h (snd e))) m) (fst kv) with Some v => [(snd kv, v)] | None => [] end) l =
  map (fun e : nat * nd => (fst e, h (snd e))) (flat_map (fun kv : str * nat => match get m (fst kv) with Some v => [(snd kv, v)] | None => [] end) l).
Proof. induction l as [|kv l IH]; [reflexivity|]. cbn [flat_map]. rewrite map_app, <- IH, get_map_val. destruct (get m (fst kv)); reflexivity. Qed.

Lemma arr_params c s x : sh x = s ++ [List.length (c_names c)] -> List.length (c_ids c) = List.length (c_names c) ->
  to_params c (AArr x) = Ok (combine (c_ids c) (map (sub (moveaxis x)) (seq 0 (List.length (c_names c))))).
Proof.
  intros S L. unfold to_params. assert (A : atleast_1d x = x) by (unfold atleast_1d; rewrite S; destruct s; reflexivity). rewrite A.
  rewrite S at 1. rewrite last_app1, Nat.eqb_refl. cbn [negb]. cbn [moveaxis sh hd]. rewrite S, last_app1, L, Nat.eqb_refl. reflexivity.
Qed.
Lemma combine_vals (ids : list nat) (xs : list nd) i : vals_at i (combine ids xs) = combine ids (map (fun x => at_ x i) xs).
Proof. revert xs; induction ids as [|a ids IH]; intros [|x xs]; try reflexivity. cbn. f_equal. apply IH. Qed.

Lemma prepare_batch c g s a : sound c g -> holds c s a ->
  exists d, prepare c a = Ok (List.length s, d) /\ d <> [] /\ (forall e, In e d -> sh (snd e) = s) /\
  forall i, List.length i = List.length s -> exists di, prepare c (arg_at i a) = Ok (0%nat, di) /\ (forall e, In e di -> sh (snd e) = []) /\ vals_at [] di = vals_at i d.
Proof.
  intros (Nn & Ll & Nd & _ & _) H. destruct a as [x|m| |]; cbn [holds] in H.
  - pose proof (arr_params c s x H Ll) as P. set (n := List.length (c_names c)) in *. assert (n0 : n <> 0%nat) by (subst n; destruct (c_names c); [easy|discriminate]).
    set (d := combine (c_ids c) (map (sub (moveaxis x)) (seq 0 n))) in *.
    assert (D : d <> []). { intros E. apply (f_equal (@List.length _)) in E. unfold d in E. rewrite combine_length, map_length, seq_length in E. cbn in E. lia. }
    assert (Hs : forall e, In e d -> sh (snd e) = s).
    { intros [k y] He. apply in_combine_r in He. apply in_map_iff in He. destruct He as (q & <- & _). cbn [snd sub sh moveaxis]. rewrite H. rewrite removelast_last. reflexivity. }
    exists d. split; [now apply check_same|]. split; [exact D|]. split; [exact Hs|]. intros i Li. cbn [arg_at].
    assert (Si : sh (slice i x) = [] ++ [n]). { cbn [slice sh]. rewrite H, Li, skipn_app, skipn_all, Nat.sub_diag. reflexivity. }
    pose proof (arr_params c [] (slice i x) Si Ll) as Pi. fold n in Pi. set (di := combine (c_ids c) (map (sub (moveaxis (slice i x))) (seq 0 n))) in *.
    assert (Di : di <> []). { intros E. apply (f_equal (@List.length _)) in E. unfold di in E. rewrite combine_length, map_length, seq_length in E. cbn in E. lia. }
    assert (Hi : forall e, In e di -> sh (snd e) = []).
    { intros [k y] He. apply in_combine_r in He. apply in_map_iff in He. destruct He as (q & <- & _). cbn [snd sub sh moveaxis]. rewrite Si. reflexivity. }
    exists di. split; [exact (check_same c _ di [] Nn Pi Di Hi)|]. split; [exact Hi|].
    unfold di, d. rewrite !combine_vals, !map_map. f_equal.
  - destruct H as ((k0 & id0 & x0 & Hk0 & Hx0) & H).
    set (F := fun m : list (str * nd) => flat_map (fun kv : str * nat => match get m (fst kv) with Some v => [(snd kv, v)] | None => [] end) (c_all c)).
    assert (P : to_params c (AMap m) = Ok (F m)) by reflexivity.
    assert (D : F m <> []). { intros E. assert (X : In (id0, x0) (F m)) by (apply in_flat_map; exists (k0, id0); split; [exact Hk0|]; cbn [fst snd]; rewrite Hx0; now left). rewrite E in X. destruct X. }
    assert (Hs : forall e, In e (F m) -> sh (snd e) = s).
    { intros e He. apply in_flat_map in He. destruct He as ([k id] & Hk & He). cbn [fst snd] in He. destruct (get m k) as [v|] eqn:G; [|destruct He]. destruct He as [<-|[]]. exact (H k id v Hk G). }
    exists (F m). split; [now apply check_same|]. split; [exact D|]. split; [exact Hs|]. intros i Li. cbn [arg_at].
    set (mi := map (fun e : str * nd => (fst e, slice i (snd e))) m).
    assert (Q : F mi = map (fun e : nat * nd => (fst e, slice i (snd e))) (F m)).
    { unfold F, mi. apply pick_map. }
    assert (Pi : to_params c (AMap mi) = Ok (F mi)) by reflexivity.
    assert (Hi : forall e, In e (F mi) -> sh (snd e) = []).
    { intros e He. rewrite Q in He. apply in_map_iff in He. destruct He as (e0 & <- & He0). cbn [snd slice sh]. rewrite (Hs e0 He0), Li. apply skipn_all. }
    exists (F mi). split; [apply (check_same c _ _ [] Nn Pi); [rewrite Q; destruct (F m); [easy|discriminate]|exact Hi]|]. split; [exact Hi|].
    rewrite Q. unfold vals_at. rewrite map_map. apply map_ext. intros e. cbn [fst snd slice at_]. now rewrite app_nil_r.
  - subst s. assert (P : to_params c ANone = Ok (map (fun e : nat * R => (fst e, scalar (snd e))) (c_default c))) by reflexivity.
    set (d := map _ (c_default c)) in *. assert (D : d <> []) by (unfold d; destruct (c_default c); [easy|discriminate]).
    assert (Hs : forall e, In e d -> sh (snd e) = []). { intros e He. apply in_map_iff in He. destruct He as (e0 & <- & _). reflexivity. }
    exists d. pose proof (check_same c _ d [] Nn P D Hs) as E. split; [exact E|]. split; [exact D|]. split; [exact Hs|].
    intros [|? ?] Li; [|discriminate]. exists d. cbn [arg_at]. split; [exact E|]. split; [exact Hs|reflexivity].
  - destruct H.
Qed.

Lemma mapped_entry f s d : traceable f -> (forall e, In e d -> sh (snd e) = s) -> d <> [] ->
  forall single, (forall i, List.length i = List.length s -> exists di, single i = mapped f 0 di /\ (forall e, In e di -> sh (snd e) = []) /\ vals_at [] di = vals_at i d) ->
  entrywise s (mapped f (List.length s) d) single.
Proof.
  intros T Hs Hne single HS. destruct (mapped_spec f T s d Hs (or_intror Hne)) as [(r & E & H)|(e & E & H)]; rewrite E; cbn [entrywise].
  - intros i Hi. pose proof (in_shape_len _ _ Hi) as Li. destruct (HS i Li) as (di & Sd & Hdi & Vd). destruct (H i Li) as (l & Fl & Sr & A).
    destruct (mapped_spec f T [] di Hdi (or_introl eq_refl)) as [(ri & Ei & Hi')|(e & Ei & Hi')].
    + destruct (Hi' [] eq_refl) as (li & Fi & Si & Ai). rewrite Vd, Fl in Fi. injection Fi as <-. exists ri. split; [now rewrite Sd|]. split.
      * rewrite Sr, Si. reflexivity.
      * intros j Hj. rewrite Si in Hj. cbn [app] in Hj. inversion Hj as [|q ? js ? _ Hn]; subst. inversion Hn; subst. rewrite A. symmetry. exact (Ai q).
    + specialize (Hi' [] eq_refl). rewrite Vd, Fl in Hi'. discriminate.
  - intros i Hi. pose proof (in_shape_len _ _ Hi) as Li. destruct (HS i Li) as (di & Sd & Hdi & Vd). specialize (H i Li).
    destruct (mapped_spec f T [] di Hdi (or_introl eq_refl)) as [(ri & Ei & Hi')|(e' & Ei & Hi')].
    + destruct (Hi' [] eq_refl) as (li & Fi & _). rewrite Vd, H in Fi. discriminate.
    + specialize (Hi' [] eq_refl). rewrite Vd, H in Hi'. rewrite Sd. unfold List.length in Ei. rewrite Ei. congruence.
Qed.

(** one evaluation for an array of parameters of any shape: entry [i] of the value is the value for the [i]-th parameters *)
Theorem C115_eval : forall c g s a, sound c g -> holds c s a -> entrywise s (eval c g a) (fun i => eval c g (arg_at i a)).
Proof.
  intros c g s a W H. destruct (prepare_batch c g s a W H) as (d & P & D & Hs & Hi). unfold eval. rewrite P. cbn [bind fst snd].
  apply mapped_entry; [apply W|exact Hs|exact D|]. intros i Li. destruct (Hi i Li) as (di & Pi & Si & Vi). exists di. rewrite Pi. cbn [bind fst snd]. auto.
Qed.
Print Assumptions C115_eval.

(** ** the derived quantities *)
Lemma in_shape_snoc j s n : in_shape j (s ++ [n]) -> exists i k, j = i ++ [k] /\ in_shape i s /\ (k < n)%nat.
Proof. intros H. apply Forall2_app_inv_r in H. destruct H as (i & k & Hi & Hk & ->). inversion Hk as [|q ? ks ? Hq Hn]; subst. inversion Hn; subst. exists i, q. auto. Qed.
Lemma agree_shape s i r ri n : agree s i r ri -> (exists t, sh ri = t ++ [n]) -> last (sh r) 0%nat = n /\ last (sh ri) 0%nat = n.
Proof. intros (S & _) (t & E). rewrite S, E, app_assoc, !last_last. auto. Qed.
(** an operation on the last axis: acts on arrays that have one, entry by entry *)
Definition pointwise (op : nd -> res nd) : Prop := forall s i r ri, agree s i r ri -> in_shape i s -> sh ri <> [] ->
  match op r with Ok v => exists vi, op ri = Ok vi /\ agree s i v vi | Err e => op ri = Err e end.
Lemma zip_pointwise f w : pointwise (fun v => zip_last f v w).
Proof.
  intros s i r ri (S & A) Hi Ne. destruct (exists_last Ne) as (t & n & E). unfold zip_last. rewrite S, E, app_assoc, !last_last.
  destruct (n =? List.length w)%nat; [|reflexivity]. eexists. split; [reflexivity|]. split; cbn [sh at_]; [now rewrite app_assoc|].
  intros j Hj. rewrite A by now rewrite E. destruct (in_shape_snoc _ _ _ Hj) as (q & k & -> & _). now rewrite app_assoc, !last_last.
Qed.
Lemma matmul_pointwise m w : pointwise (fun v => matmul_last v m w).
Proof.
  intros s i r ri (S & A) Hi Ne. destruct (exists_last Ne) as (t & n & E). unfold matmul_last. rewrite S, E, app_assoc, !last_last.
  destruct (n =? List.length m)%nat eqn:L; [|reflexivity]. apply Nat.eqb_eq in L. eexists. split; [reflexivity|]. rewrite !removelast_last. split; cbn [sh at_]; [now rewrite app_assoc|].
  intros j Hj. destruct (in_shape_snoc _ _ _ Hj) as (q & k & -> & Hq & Hk). rewrite app_assoc, !last_last, !removelast_last. f_equal.
  apply map_ext_in. intros p Hp. apply in_seq in Hp. rewrite <- app_assoc, A; [reflexivity|]. rewrite E. apply Forall2_app; [exact Hq|]. repeat constructor. lia.
Qed.
Lemma sum_pointwise : pointwise (fun v => Ok (sum_last v)).
Proof.
  intros s i r ri (S & A) Hi Ne. destruct (exists_last Ne) as (t & n & E). eexists. split; [reflexivity|]. unfold sum_last. split; cbn [sh at_].
  - rewrite S, E, app_assoc, !removelast_last. reflexivity.
  - intros j Hj. rewrite S, E, app_assoc, !last_last. rewrite E, removelast_last in Hj. f_equal. apply map_ext_in. intros p Hp. apply in_seq in Hp. rewrite <- app_assoc. apply A. rewrite E.
    apply Forall2_app; [exact Hj|]. repeat constructor. lia.
Qed.
(** keeps an axis *)
Definition keeps (op : nd -> res nd) : Prop := forall v w, op v = Ok w -> sh v <> [] -> sh w <> [].
Lemma zip_keeps f w : keeps (fun v => zip_last f v w).
Proof. intros v u H Nv. unfold zip_last in H. destruct (_ =? _)%nat; [|discriminate]. injection H as <-. exact Nv. Qed.
Lemma matmul_keeps m w : keeps (fun v => matmul_last v m w).
Proof. intros v u H Nv. unfold matmul_last in H. destruct (_ =? _)%nat; [|discriminate]. injection H as <-. cbn [sh]. now destruct (removelast (sh v)). Qed.
Lemma then_pointwise f h : pointwise f -> keeps f -> pointwise h -> pointwise (fun v => bind (f v) h).
Proof.
  intros F K H s i r ri A Hi Ne. specialize (F s i r ri A Hi Ne). destruct (f r) as [v|e]; cbn [bind].
  - destruct F as (vi & Ei & Av). rewrite Ei. cbn [bind]. apply H; auto. exact (K _ _ Ei Ne).
  - now rewrite F.
Qed.
Lemma then_keeps f h : keeps f -> keeps h -> keeps (fun v => bind (f v) h).
Proof. intros F H v w E Ne. destruct (f v) as [u|] eqn:Eu; [|discriminate]. cbn [bind] in E. exact (H _ _ E (F _ _ Eu Ne)). Qed.

(** entries with an axis of energies *)
Definition entrywise_axis (s : list nat) (r : res (list (str * nd))) (single : list nat -> res (list (str * nd))) : Prop :=
  match r with
  | Ok v => forall i, in_shape i s -> exists vi, single i = Ok vi /\ Forall2 (fun e ei => fst e = fst ei /\ agree s i (snd e) (snd ei) /\ sh (snd ei) <> []) v vi
  | Err e => forall i, in_shape i s -> single i = Err e
  end.
Lemma F2_weaken {A B} (P Q : A -> B -> Prop) l m : (forall x y, P x y -> Q x y) -> Forall2 P l m -> Forall2 Q l m.
Proof. intros H F. induction F; constructor; auto. Qed.
Lemma axis_all s r single : entrywise_axis s r single -> entrywise_all s r single.
Proof.
  destruct r as [v|e]; cbn [entrywise_axis entrywise_all]; [|tauto]. intros H i Hi. destruct (H i Hi) as (vi & E & F). exists vi. split; [exact E|].
  apply (F2_weaken _ _ _ _ (fun x y H => conj (proj1 H) (proj1 (proj2 H))) F).
Qed.
Lemma map_vals_one op s i : pointwise op -> in_shape i s -> forall v vi,
  Forall2 (fun e ei : str * nd => fst e = fst ei /\ agree s i (snd e) (snd ei) /\ sh (snd ei) <> []) v vi ->
  match map_vals op v with
  | Ok u => exists ui, map_vals op vi = Ok ui /\ Forall2 (fun e ei : str * nd => fst e = fst ei /\ agree s i (snd e) (snd ei) /\ (keeps op -> sh (snd ei) <> [])) u ui
  | Err e => map_vals op vi = Err e
  end.
Proof.
  intros P Hi v vi F. unfold map_vals. induction F as [|[k x] [k' x'] l m (F1 & F2 & F3) F IH]; cbn [mapE]; [exists []; split; [reflexivity|constructor]|].
  cbn [fst snd] in *. subst k'. specialize (P s i x x' F2 Hi F3). destruct (op x) as [y|e]; cbn [bind].
  - destruct P as (y' & E' & A'). rewrite E'. cbn [bind]. destruct (mapE _ l) as [u|e]; cbn [bind].
    + destruct IH as (ui & -> & Fu). cbn [bind]. eexists. split; [reflexivity|]. constructor; [|exact Fu]. cbn [fst snd]. split; [reflexivity|]. split; [exact A'|]. intros K. exact (K _ _ E' F3).
    + rewrite IH. reflexivity.
  - now rewrite P.
Qed.
Lemma map_vals_axis op s r single : pointwise op -> keeps op -> entrywise_axis s r single -> entrywise_axis s (bind r (map_vals op)) (fun i => bind (single i) (map_vals op)).
Proof.
  intros P K H. destruct r as [v|e]; cbn [bind entrywise_axis] in *.
  - destruct (map_vals op v) as [u|e] eqn:E; cbn [entrywise_axis]; intros i Hi; destruct (H i Hi) as (vi & -> & F); cbn [bind]; pose proof (map_vals_one op s i P Hi v vi F) as M; rewrite E in M.
    + destruct M as (ui & Eu & Fu). exists ui. split; [exact Eu|]. refine (F2_weaken _ _ _ _ _ Fu). intros x y (F1 & F2 & F3). auto.
    + exact M.
  - intros i Hi. now rewrite (H i Hi).
Qed.
Lemma map_vals_all op s r single : pointwise op -> entrywise_axis s r single -> entrywise_all s (bind r (map_vals op)) (fun i => bind (single i) (map_vals op)).
Proof.
  intros P H. destruct r as [v|e]; cbn [bind entrywise_axis entrywise_all] in *.
  - destruct (map_vals op v) as [u|e] eqn:E; cbn [entrywise_all]; intros i Hi; destruct (H i Hi) as (vi & -> & F); cbn [bind]; pose proof (map_vals_one op s i P Hi v vi F) as M; rewrite E in M.
    + destruct M as (ui & Eu & Fu). exists ui. split; [exact Eu|]. refine (F2_weaken _ _ _ _ _ Fu). intros x y (F1 & F2 & F3). auto.
    + exact M.
  - intros i Hi. now rewrite (H i Hi).
Qed.

Lemma mapped_axis f : traceable f -> forall s d r, (forall e, In e d -> sh (snd e) = s) -> d <> [] -> mapped f (List.length s) d = Ok r -> sh r <> [].
Proof.
  intros T s d r Hs D E. destruct (mapped_spec f T s d Hs (or_intror D)) as [(r' & E' & H)|(e & E' & _)]; [|congruence].
  assert (r' = r) by congruence. subst r'. destruct (H (repeat 0%nat (List.length s)) (repeat_length _ _)) as (l & _ & S & _). rewrite S. now destruct s.
Qed.
Lemma ne_axis c g s a comps : sound c g -> holds c s a -> entrywise_axis s (ne c g a comps) (fun i => ne c g (arg_at i a) comps).
Proof.
  intros W H. unfold ne. destruct (c_add c); cbn [negb]; [|intros i _; reflexivity].
  destruct (prepare_batch c g s a W H) as (d & P & D & Hs & Hi). destruct W as (W1 & W2 & W3 & W4 & W5).
  destruct comps; [destruct (c_comps c) as [fs|] eqn:Ec|].
  - rewrite P. cbn [bind fst snd].
    set (E0 := fun kd : nat * list (nat * nd) => mapE (fun e : str * (list R -> list (nat * R) -> res (list R)) => bind (mapped (snd e g) (fst kd) (snd kd)) (fun v => Ok (fst e, v))) fs).
    assert (X : entrywise_axis s (E0 (List.length s, d)) (fun i => bind (prepare c (arg_at i a)) E0)).
    { unfold E0. cbn [fst snd]. clear E0. specialize (W5 fs eq_refl). clear Ec.
      assert (Y : forall fs, Forall (fun e : str * (list R -> list (nat * R) -> res (list R)) => traceable (snd e g)) fs -> forall i di, in_shape i s ->
        (forall e, In e di -> sh (snd e) = []) -> di <> [] -> vals_at [] di = vals_at i d ->
        match mapE (fun e : str * (list R -> list (nat * R) -> res (list R)) => bind (mapped (snd e g) (List.length s) d) (fun v => Ok (fst e, v))) fs,
              mapE (fun e : str * (list R -> list (nat * R) -> res (list R)) => bind (mapped (snd e g) 0 di) (fun v => Ok (fst e, v))) fs with
        | Ok v, Ok vi => Forall2 (fun e ei : str * nd => fst e = fst ei /\ agree s i (snd e) (snd ei) /\ sh (snd ei) <> []) v vi
        | Err e, Err e' => e = e' | _, _ => False end).
      { clear fs W5. intros fs Ft i di Hin Hdi Ddi Vdi. induction Ft as [|[n f] fs Tf Ft IH]; cbn [mapE]; [constructor|]. cbn [fst snd] in *.
        assert (Pm : entrywise s (mapped (f g) (List.length s) d) (fun i' => if list_eq_dec Nat.eq_dec i i' then mapped (f g) 0 di else bind (prepare c (arg_at i' a)) (fun kd => mapped (f g) (fst kd) (snd kd)))).
        { apply mapped_entry; [exact Tf|exact Hs|exact D|]. intros i' Li'. destruct (list_eq_dec Nat.eq_dec i i') as [<-|_]; [exists di; auto|]. destruct (Hi i' Li') as (di' & Pi' & Si' & Vi'). exists di'. rewrite Pi'. cbn [bind fst snd]. auto. }
        destruct (mapped (f g) (List.length s) d) as [r|e]; cbn [entrywise bind] in *.
        - destruct (Pm i Hin) as (ri & Eri & Ag). destruct (list_eq_dec Nat.eq_dec i i) as [_|]; [|easy]. rewrite Eri. cbn [bind].
          destruct (mapE _ fs) as [v|e]; destruct (mapE _ fs) as [vi|e']; cbn [bind]; try exact IH. constructor; [|exact IH]. cbn [fst snd]. split; [reflexivity|]. split; [exact Ag|].
          exact (mapped_axis (f g) Tf [] di ri Hdi Ddi Eri).
        - specialize (Pm i Hin). destruct (list_eq_dec Nat.eq_dec i i) as [_|]; [|easy]. rewrite Pm. reflexivity. }
      assert (Yi : forall i, in_shape i s -> exists di, prepare c (arg_at i a) = Ok (0%nat, di) /\ (forall e, In e di -> sh (snd e) = []) /\ di <> [] /\ vals_at [] di = vals_at i d).
      { intros i Hin. destruct (Hi i (in_shape_len _ _ Hin)) as (di & Pi & Si & Vi). exists di. split; [exact Pi|]. split; [exact Si|]. split; [|exact Vi].
        intros ->. destruct d; [easy|discriminate]. }
      destruct (mapE (fun e : str * (list R -> list (nat * R) -> res (list R)) => bind (mapped (snd e g) (List.length s) d) (fun v => Ok (fst e, v))) fs) as [v|e] eqn:Ev; cbn [entrywise_axis]; intros i Hin;
        destruct (Yi i Hin) as (di & Pi & Si & Di & Vi); rewrite Pi; cbn [bind fst snd]; specialize (Y fs W5 i di Hin Si Di Vi); rewrite Ev in Y;
        destruct (mapE (fun e : str * (list R -> list (nat * R) -> res (list R)) => bind (mapped (snd e g) 0 di) (fun v => Ok (fst e, v))) fs) as [vi|e']; try (destruct Y; fail).
      - exists vi. auto.
      - now subst. }
    pose proof (map_vals_axis _ s _ _ (zip_pointwise Rdiv (widths g)) (zip_keeps Rdiv (widths g)) X) as Z. unfold E0 in Z. cbn [fst snd] in Z.
    revert Z. match goal with |- entrywise_axis s ?A ?B -> entrywise_axis s ?A' ?B' => change A with A'; intros Z; assert (EB : forall i, B i = B' i) end.
    { intros i. cbv beta. destruct (prepare c (arg_at i a)); reflexivity. }
    revert Z EB. match goal with |- entrywise_axis s ?A ?B -> _ -> entrywise_axis s ?A ?B' => destruct A as [v|e]; cbn [entrywise_axis]; intros Z EB i Hin; rewrite <- EB; exact (Z i Hin) end.
  - intros i _. reflexivity.
  - pose proof (C115_eval c g s a (conj W1 (conj W2 (conj W3 (conj W4 W5)))) H) as V.
    assert (Ax : forall i v, in_shape i s -> eval c g (arg_at i a) = Ok v -> sh v <> []).
    { intros i v Hin E. destruct (Hi i (in_shape_len _ _ Hin)) as (di & Pi & Si & Vi). unfold eval in E. rewrite Pi in E. cbn [bind fst snd] in E. apply (mapped_axis _ W4 [] di v Si); [intros ->; destruct d; [easy|discriminate]|exact E]. }
    destruct (eval c g a) as [v|e]; cbn [entrywise bind] in V |- *.
    + destruct (zip_last Rdiv v (widths g)) as [u|e] eqn:Eu; cbn [bind entrywise_axis]; intros i Hin; destruct (V i Hin) as (vi & Ei & Ag); rewrite Ei; cbn [bind];
        pose proof (zip_pointwise Rdiv (widths g) s i v vi Ag Hin (Ax i vi Hin Ei)) as Z; cbv beta in Z; rewrite Eu in Z.
      * destruct Z as (ui & Eui & Agu). rewrite Eui. cbn [bind]. eexists. split; [reflexivity|]. constructor; [|constructor]. cbn [fst snd]. split; [reflexivity|]. split; [exact Agu|].
        exact (zip_keeps Rdiv (widths g) _ _ Eui (Ax i vi Hin Ei)).
      * rewrite Z. reflexivity.
    + cbn [entrywise_axis]. intros i Hin. now rewrite (V i Hin).
Qed.

(** [ne], [ene], [eene], the folded model and the flux of an array of parameters, total or by component, are those of its entries *)
Theorem C115_ne : forall c g s a comps, sound c g -> holds c s a -> entrywise_all s (ne c g a comps) (fun i => ne c g (arg_at i a) comps).
Proof. intros c g s a comps W H. apply axis_all. now apply ne_axis. Qed.
Print Assumptions C115_ne.
Theorem C115_ene : forall c g s a comps, sound c g -> holds c s a ->
  entrywise_all s (ene c g a comps) (fun i => ene c g (arg_at i a) comps) /\ entrywise_all s (eene c g a comps) (fun i => eene c g (arg_at i a) comps).
Proof. intros c g s a comps W H. unfold ene, eene. split; (apply map_vals_all; [apply zip_pointwise|now apply ne_axis]). Qed.
Print Assumptions C115_ene.
Theorem C115_ce : forall c g m w s a comps, sound c g -> holds c s a -> entrywise_all s (ce c g m w a comps) (fun i => ce c g m w (arg_at i a) comps).
Proof.
  intros c g m w s a comps W H. unfold ce. apply map_vals_all; [|now apply ne_axis].
  apply (then_pointwise (fun v => zip_last Rmult v (widths g))); [apply zip_pointwise|apply zip_keeps|].
  apply (then_pointwise (fun v => matmul_last v m (List.length w))); [apply matmul_pointwise|apply matmul_keeps|apply zip_pointwise].
Qed.
Print Assumptions C115_ce.
Theorem C115_flux : forall c g energy s a comps, sound c g -> holds c s a -> entrywise_all s (flux c g energy a comps) (fun i => flux c g energy (arg_at i a) comps).
Proof.
  intros c g energy s a comps W H. unfold flux.
  assert (X : entrywise_axis s (if energy then ene c g a comps else ne c g a comps) (fun i => if energy then ene c g (arg_at i a) comps else ne c g (arg_at i a) comps)).
  { destruct energy; [|now apply ne_axis]. unfold ene. apply map_vals_axis; [apply zip_pointwise|apply zip_keeps|now apply ne_axis]. }
  apply map_vals_all; [|exact X]. apply (then_pointwise (fun v => zip_last Rmult v (widths g)) (fun v => Ok (sum_last v))); [apply zip_pointwise|apply zip_keeps|apply sum_pointwise].
Qed.
Print Assumptions C115_flux.

(** the flux of an array of parameters has the shape of the array, and its entries are the fluxes *)
Theorem C115_flux_entries : forall c g energy s a comps v, sound c g -> holds c s a -> flux c g energy a comps = Ok v ->
  forall i, in_shape i s -> exists vi, flux c g energy (arg_at i a) comps = Ok vi /\
  Forall2 (fun e ei : str * nd => fst e = fst ei /\ sh (snd ei) = [] /\ sh (snd e) = s /\ at_ (snd e) i = at_ (snd ei) []) v vi.
Proof.
  intros c g energy s a comps v W H E i Hi. pose proof (C115_flux c g energy s a comps W H) as F. rewrite E in F. cbn [entrywise_all] in F.
  destruct (F i Hi) as (vi & Ei & Fi). exists vi. split; [exact Ei|].
  assert (Sc : Forall (fun ei : str * nd => sh (snd ei) = []) vi).
  { assert (Hi1 : holds c [] (arg_at i a)).
    { destruct a as [x|m| |]; cbn [holds arg_at] in *; [| |exact eq_refl|exact H].
      - cbn [slice sh]. rewrite H, (in_shape_len _ _ Hi), skipn_app, skipn_all, Nat.sub_diag. reflexivity.
      - destruct H as ((k0 & id0 & x0 & Hk0 & Hx0) & H). split.
        + exists k0, id0, (slice i x0). split; [exact Hk0|]. rewrite get_map_val, Hx0. reflexivity.
        + intros k id x Hk Hx. rewrite get_map_val in Hx. destruct (get m k) as [y|] eqn:G; [|discriminate]. cbn in Hx. injection Hx as <-. cbn [slice sh]. rewrite (H k id y Hk G), (in_shape_len _ _ Hi). apply skipn_all. }
    (* the arrays of one evaluation have one axis *)
    assert (One : forall u, ne c g (arg_at i a) comps = Ok u -> Forall (fun e : str * nd => exists n, sh (snd e) = [n]) u).
    { intros u Eu. unfold ne in Eu. destruct (c_add c); cbn [negb] in Eu; [|discriminate].
      destruct (prepare_batch c g [] (arg_at i a) W Hi1) as (d & P & D & Hs & _). rewrite P in Eu || unfold eval in Eu. destruct W as (_ & _ & _ & W4 & W5).
      assert (Sh : forall f r, traceable f -> mapped f 0 d = Ok r -> exists n, sh r = [n]).
      { intros f r T Er. destruct (mapped_spec f T [] d Hs (or_introl eq_refl)) as [(r' & Er' & Hr)|(e & Er' & _)]; [|unfold List.length in Er'; congruence].
        assert (X : r' = r) by (unfold List.length in Er'; congruence). subst r'. destruct (Hr [] eq_refl) as (l & _ & S & _). exists (List.length l). exact S. }
      assert (Zs : forall f v w r, zip_last f v w = Ok r -> sh r = sh v) by (intros f v0 w r Er; unfold zip_last in Er; destruct (_ =? _)%nat; [injection Er as <-; reflexivity|discriminate]).
      destruct comps; [destruct (c_comps c) as [fs|] eqn:Ec; [|discriminate]|].
      - cbn [bind fst snd List.length] in Eu.
        destruct (mapE (fun e : str * (list R -> list (nat * R) -> res (list R)) => bind (mapped (snd e g) 0 d) (fun v0 => Ok (fst e, v0))) fs) as [vs|] eqn:Ev; [|discriminate]. cbn [bind] in Eu.
        assert (Fv : Forall (fun e : str * nd => exists n, sh (snd e) = [n]) vs).
        { specialize (W5 fs eq_refl). clear Eu Ec. revert vs Ev. induction W5 as [|[n f] fs Tf _ IH]; intros vs Ev; cbn [mapE] in Ev; [injection Ev as <-; constructor|]. cbn [fst snd] in *.
          destruct (mapped (f g) 0 d) as [r|] eqn:Er; [|discriminate]. cbn [bind] in Ev. destruct (mapE _ fs) as [rs|]; [|discriminate]. cbn [bind] in Ev. injection Ev as <-.
          constructor; [exact (Sh _ _ Tf Er)|exact (IH rs eq_refl)]. }
        clear Ev. revert u Eu. unfold map_vals. induction Fv as [|[n r] vs (q & Hq) _ IH]; intros u Eu; cbn [mapE] in Eu; [injection Eu as <-; constructor|]. cbn [fst snd] in *.
        destruct (zip_last Rdiv r (widths g)) as [z|] eqn:Ez; [|discriminate]. cbn [bind] in Eu. destruct (mapE _ vs) as [us|]; [|discriminate]. cbn [bind] in Eu. injection Eu as <-.
        constructor; [exists q; cbn [snd]; rewrite (Zs _ _ _ _ Ez); exact Hq|exact (IH us eq_refl)].
      - unfold eval in Eu. rewrite P in Eu. cbn [bind fst snd List.length] in Eu. destruct (mapped (c_fn c g) 0 d) as [r|] eqn:Er; [|discriminate]. cbn [bind] in Eu.
        destruct (zip_last Rdiv r (widths g)) as [z|] eqn:Ez; [|discriminate]. cbn [bind] in Eu. injection Eu as <-. constructor; [|constructor]. cbn [snd]. rewrite (Zs _ _ _ _ Ez). exact (Sh _ _ W4 Er). }
    assert (Mv : forall op (Pq Q : nd -> Prop), (forall v0 w, op v0 = Ok w -> Pq v0 -> Q w) -> forall u w, Forall (fun e : str * nd => Pq (snd e)) u -> map_vals op u = Ok w -> Forall (fun e : str * nd => Q (snd e)) w).
    { intros op Pq Q Hop u w Fu. revert w. unfold map_vals. induction Fu as [|[n r] u Hr _ IH]; intros w Ew; cbn [mapE] in Ew; [injection Ew as <-; constructor|]. cbn [fst snd] in *.
      destruct (op r) as [z|] eqn:Ez; [|discriminate]. cbn [bind] in Ew. destruct (mapE _ u) as [us|]; [|discriminate]. cbn [bind] in Ew. injection Ew as <-. constructor; [exact (Hop _ _ Ez Hr)|exact (IH us eq_refl)]. }
    assert (Zs : forall f v w r, zip_last f v w = Ok r -> sh r = sh v) by (intros f v0 w r Er; unfold zip_last in Er; destruct (_ =? _)%nat; [injection Er as <-; reflexivity|discriminate]).
    unfold flux in Ei.
    assert (Any : forall u, (if energy then ene c g (arg_at i a) comps else ne c g (arg_at i a) comps) = Ok u -> Forall (fun e : str * nd => exists n, sh (snd e) = [n]) u).
    { destruct energy; [|exact One]. intros u Eu. unfold ene in Eu. destruct (ne c g (arg_at i a) comps) as [u0|] eqn:E0; [|discriminate]. cbn [bind] in Eu.
      refine (Mv _ (fun x => exists n, sh x = [n]) (fun x => exists n, sh x = [n]) _ u0 u (One u0 eq_refl) Eu). intros v0 w Ew (n & Hn). exists n. rewrite (Zs _ _ _ _ Ew). exact Hn. }
    destruct (if energy then ene c g (arg_at i a) comps else ne c g (arg_at i a) comps) as [u|]; [|discriminate]. cbn [bind] in Ei.
    refine (Mv _ (fun x => exists n, sh x = [n]) (fun x => sh x = []) _ u vi (Any u eq_refl) Ei). intros v0 w Ew (n & Hn).
    destruct (zip_last Rmult v0 (widths g)) as [z|] eqn:Ez; [|discriminate]. cbn [bind] in Ew. injection Ew as <-. cbn [sum_last sh]. rewrite (Zs _ _ _ _ Ez), Hn. reflexivity. }
  clear Ei E F. induction Fi as [|[k x] [k' x'] l m (F1 & F2 & F3) _ IH]; [constructor|]. inversion Sc as [|? ? S1 S2]; subst. constructor; [|exact (IH S2)].
  cbn [fst snd] in *. split; [exact F1|]. split; [exact S1|]. split; [rewrite F2, S1; apply app_nil_r|]. specialize (F3 []). rewrite app_nil_r in F3. apply F3. rewrite S1. constructor.
Qed.
Print Assumptions C115_flux_entries.

(** ** what is refused *)
(** an array without one entry per free parameter on its last axis; a mapping that names none of the parameters; arrays of different shapes:
    numbers are not spread over an array *)
Theorem C115_refused : forall c g,
  (forall x, sh x <> [] -> last (sh x) 0%nat <> List.length (c_names c) -> eval c g (AArr x) = Err ValueError) /\
  (forall x, sh x = [] -> List.length (c_names c) <> 1%nat -> eval c g (AArr x) = Err ValueError) /\
  (forall d, c_names c <> [] -> (forall k id, In (k, id) (c_all c) -> get d k = None) -> eval c g (AMap d) = Err ValueError) /\
  (forall d k id x k' id' x', c_names c <> [] -> In (k, id) (c_all c) -> In (k', id') (c_all c) -> get d k = Some x -> get d k' = Some x' -> sh x <> sh x' -> eval c g (AMap d) = Err ValueError) /\
  eval c g AOther = Err TypeError.
Proof.
  intros c g. split; [|split; [|split; [|split]]].
  - intros x Ne L. unfold eval, prepare, to_params. assert (A : atleast_1d x = x) by (unfold atleast_1d; now destruct (sh x)). rewrite A. apply Nat.eqb_neq in L. rewrite L. reflexivity.
  - intros x Ne L. unfold eval, prepare, to_params. unfold atleast_1d. rewrite Ne. cbn [sh last]. assert (L' : (1 =? List.length (c_names c))%nat = false) by (apply Nat.eqb_neq; auto). rewrite L'. reflexivity.
  - intros d N H. unfold eval, prepare, to_params. cbn [bind].
    assert (E : flat_map (fun kv : str * nat => match get d (fst kv) with Some v => [(snd kv, v)] | None => [] end) (c_all c) = []).
    { induction (c_all c) as [|[k id] l IH]; [reflexivity|]. cbn [flat_map fst snd]. rewrite (H k id) by now left. cbn [app]. apply IH. intros k1 id1 H1. apply (H k1 id1). now right. }
    rewrite E. now destruct (c_names c).
  - intros d k id x k' id' x' N Hk Hk' Hx Hx' Ne. unfold eval, prepare, to_params. cbn [bind]. set (D := flat_map _ (c_all c)).
    assert (I : In (id, x) D) by (apply in_flat_map; exists (k, id); split; [exact Hk|]; cbn [fst snd]; rewrite Hx; now left).
    assert (I' : In (id', x') D) by (apply in_flat_map; exists (k', id'); split; [exact Hk'|]; cbn [fst snd]; rewrite Hx'; now left).
    destruct (c_names c) as [|n0 ns]; [easy|]. destruct D as [|[q y] r]; [destruct I|].
    destruct (existsb (fun e : nat * nd => negb (shape_eqb (sh (snd e)) (sh y))) r) eqn:X; [reflexivity|].
    assert (All : forall e, In e ((q, y) :: r) -> sh (snd e) = sh y).
    { intros e [<-|He]; [reflexivity|]. destruct (shape_eqb (sh (snd e)) (sh y)) eqn:Y; [now apply shape_eqb_eq|].
      assert (existsb (fun e : nat * nd => negb (shape_eqb (sh (snd e)) (sh y))) r = true) by (apply existsb_exists; exists e; split; [exact He|now rewrite Y]). congruence. }
    pose proof (All _ I) as A1. pose proof (All _ I') as A2. cbn [snd] in A1, A2. congruence.
  - reflexivity.
Qed.
Print Assumptions C115_refused.

(** what the functions of the spectrum are, entry by entry: [v] is the value of the model, the photons of every bin of an increasing grid *)
Lemma widths_spec f g : List.length (steps f g) = (List.length g - 1)%nat /\
  forall k, (k + 1 < List.length g)%nat -> nth k (steps f g) 0 = f (nth k g 0) (nth (k + 1) g 0).
Proof.
  induction g as [|x [|y g] IH]; [split; [reflexivity|cbn; intros; lia]|split; [reflexivity|cbn; intros; lia]|].
  destruct IH as (L & N). change (steps f (x :: y :: g)) with (f x y :: steps f (y :: g)). split.
  - cbn [List.length]. rewrite L. cbn [List.length]. lia.
  - intros [|k] H; [reflexivity|]. cbn [nth]. rewrite N by (cbn [List.length] in *; lia). reflexivity.
Qed.
Lemma steps_map f h g : List.length (map h (steps f g)) = (List.length g - 1)%nat /\
  forall k, (k + 1 < List.length g)%nat -> nth k (map h (steps f g)) 0 = h (f (nth k g 0) (nth (k + 1) g 0)).
Proof.
  destruct (widths_spec f g) as (L & N). split; [now rewrite map_length|]. intros k H.
  rewrite (nth_indep _ 0 (h 0)) by (rewrite map_length, L; lia). rewrite map_nth. now rewrite N.
Qed.
Lemma rsum_ext_in {A} (f h : A -> R) l : (forall x, In x l -> f x = h x) -> rsum (map f l) = rsum (map h l).
Proof. intros H. f_equal. now apply map_ext_in. Qed.

Theorem C115_formulas : forall c g a v s n, c_add c = true -> eval c g a = Ok v -> sh v = s ++ [n] -> List.length g = (n + 1)%nat ->
  (forall k, (k < n)%nat -> nth k g 0 < nth (k + 1) g 0) ->
  let lo k := nth k g 0 in let hi k := nth (k + 1) g 0 in
  (exists w, ne c g a false = Ok [([], w)] /\ sh w = sh v /\
    forall i k, (k < n)%nat -> at_ w (i ++ [k]) = at_ v (i ++ [k]) / (hi k - lo k)) /\
  (exists w, ene c g a false = Ok [([], w)] /\ sh w = sh v /\
    forall i k, (k < n)%nat -> at_ w (i ++ [k]) = 1.602176634e-9 * sqrt (lo k * hi k) * (at_ v (i ++ [k]) / (hi k - lo k))) /\
  (exists w, eene c g a false = Ok [([], w)] /\ sh w = sh v /\
    forall i k, (k < n)%nat -> at_ w (i ++ [k]) = 1.602176634e-9 * (lo k * hi k) * (at_ v (i ++ [k]) / (hi k - lo k))) /\
  (forall m dw, List.length m = n -> exists w, ce c g m dw a false = Ok [([], w)] /\ sh w = s ++ [List.length dw] /\
    forall i j, (j < List.length dw)%nat ->
      at_ w (i ++ [j]) = rsum (map (fun k => at_ v (i ++ [k]) * nth j (nth k m []) 0) (seq 0 n)) / nth j dw 0) /\
  (exists w, flux c g false a false = Ok [([], w)] /\ sh w = s /\ forall i, at_ w i = rsum (map (fun k => at_ v (i ++ [k])) (seq 0 n))) /\
  (exists w, flux c g true a false = Ok [([], w)] /\ sh w = s /\
    forall i, at_ w i = rsum (map (fun k => 1.602176634e-9 * sqrt (lo k * hi k) * at_ v (i ++ [k])) (seq 0 n))).
Proof.
  intros c g a v s n Ca Ev Sv Lg Up lo hi.
  assert (Ls : last (sh v) 0%nat = n) by (rewrite Sv; apply last_app1).
  assert (Rs : removelast (sh v) = s) by (rewrite Sv; apply removelast_last).
  destruct (widths_spec (fun a b => b - a) g) as (Lw & Nw). fold (widths g) in Lw, Nw.
  assert (Zl : forall f (u : nd) w, sh u = sh v -> List.length w = n -> zip_last f u w = Ok {| sh := sh u; at_ := fun i => f (at_ u i) (nth (last i 0%nat) w 0) |}).
  { intros f u w E L. unfold zip_last. rewrite E, Ls, L, Nat.eqb_refl. reflexivity. }
  assert (Lw' : List.length (widths g) = n) by (rewrite Lw; lia).
  set (w0 := {| sh := sh v; at_ := fun i => at_ v i / nth (last i 0%nat) (widths g) 0 |}).
  assert (E0 : ne c g a false = Ok [([], w0)]).
  { unfold ne. rewrite Ca. cbn [negb]. rewrite Ev. cbn [bind]. rewrite (Zl Rdiv v (widths g) eq_refl Lw'). reflexivity. }
  assert (A0 : forall i k, (k < n)%nat -> at_ w0 (i ++ [k]) = at_ v (i ++ [k]) / (hi k - lo k)).
  { intros i k H. cbn [at_ w0]. rewrite last_app1, Nw by lia. reflexivity. }
  assert (S0 : sh w0 = sh v) by reflexivity. clearbody w0.
  destruct (steps_map Rmult (fun e2 => keV_to_erg * sqrt e2) g) as (L1 & N1).
  destruct (steps_map Rmult (fun e2 => keV_to_erg * e2) g) as (L2 & N2).
  set (w1 := {| sh := sh w0; at_ := fun i => nth (last i 0%nat) (map (fun e2 => keV_to_erg * sqrt e2) (steps Rmult g)) 0 * at_ w0 i |}).
  assert (E1 : ene c g a false = Ok [([], w1)]).
  { unfold ene. rewrite E0. cbn [bind]. unfold map_vals. cbn [mapE fst snd]. rewrite Zl by (try exact S0; lia). reflexivity. }
  assert (A1 : forall i k, (k < n)%nat -> at_ w1 (i ++ [k]) = 1.602176634e-9 * sqrt (lo k * hi k) * (at_ v (i ++ [k]) / (hi k - lo k))).
  { intros i k H. cbn [at_ w1]. rewrite last_app1, N1 by lia. rewrite A0 by exact H. reflexivity. }
  assert (S1 : sh w1 = sh v) by exact S0. clearbody w1.
  split; [exists w0; easy|]. split; [exists w1; easy|]. split.
  { eexists. split; [unfold eene; rewrite E0; cbn [bind]; unfold map_vals; cbn [mapE fst snd]; rewrite Zl by (try exact S0; lia); reflexivity|].
    cbn [sh at_]. split; [exact S0|]. intros i k H. rewrite last_app1, N2 by lia. rewrite A0 by exact H. reflexivity. }
  assert (Wd : forall k, (k < n)%nat -> hi k - lo k <> 0) by (intros k H; specialize (Up k H); unfold hi, lo; lra).
  split.
  { intros m dw Lm. eexists. split.
    - unfold ce. rewrite E0. cbn [bind]. unfold map_vals. cbn [mapE fst snd]. rewrite Zl by (try exact S0; exact Lw'). cbn [bind].
      unfold matmul_last. cbn [sh at_]. rewrite S0, Ls, Lm, Nat.eqb_refl. cbn [bind].
      unfold zip_last. cbn [sh at_]. rewrite last_app1, Nat.eqb_refl. cbn [bind]. reflexivity.
    - cbn [sh at_]. split; [now rewrite Rs|]. intros i j H. rewrite last_app1. f_equal. apply rsum_ext_in. intros k K. apply in_seq in K.
      rewrite removelast_last, last_app1, A0, Nw by lia. change (nth (k + 1) g 0) with (hi k). change (nth k g 0) with (lo k). field. apply Wd. lia. }
  assert (F : forall u, sh u = sh v -> bind (zip_last Rmult u (widths g)) (fun v => Ok (sum_last v)) =
    Ok {| sh := s; at_ := fun i => rsum (map (fun k => at_ u (i ++ [k]) * nth (last (i ++ [k]) 0%nat) (widths g) 0) (seq 0 n)) |}).
  { intros u E. rewrite Zl by (try exact E; exact Lw'). cbn [bind]. unfold sum_last. cbn [sh at_]. now rewrite E, Rs, Ls. }
  split; eexists.
  - split; [unfold flux; rewrite E0; cbn [bind]; unfold map_vals; cbn [mapE fst snd]; rewrite F by exact S0; reflexivity|].
    cbn [sh at_]. split; [reflexivity|]. intros i. apply rsum_ext_in. intros k K. apply in_seq in K. rewrite last_app1, A0, Nw by lia.
    change (nth (k + 1) g 0) with (hi k). change (nth k g 0) with (lo k). field. apply Wd. lia.
  - split; [unfold flux; rewrite E1; cbn [bind]; unfold map_vals; cbn [mapE fst snd]; rewrite F by exact S1; reflexivity|].
    cbn [sh at_]. split; [reflexivity|]. intros i. apply rsum_ext_in. intros k K. apply in_seq in K. rewrite last_app1, A1, Nw by lia.
    change (nth (k + 1) g 0) with (hi k). change (nth k g 0) with (lo k). field. apply Wd. lia.
Qed.
Print Assumptions C115_formulas.

(** a misspelt name is ignored *)
Theorem C115_unknown_ignored_refuted : forall c g d d', (forall k id, In (k, id) (c_all c) -> get d k = get d' k) -> eval c g (AMap d) = eval c g (AMap d').
Proof.
  intros c g d d' H. unfold eval, prepare, to_params. cbn [bind].
  assert (E : flat_map (fun kv : str * nat => match get d (fst kv) with Some v => [(snd kv, v)] | None => [] end) (c_all c) =
              flat_map (fun kv : str * nat => match get d' (fst kv) with Some v => [(snd kv, v)] | None => [] end) (c_all c)).
  { induction (c_all c) as [|[k id] l IH]; [reflexivity|]. cbn [flat_map fst snd]. rewrite (H k id) by now left. f_equal. apply IH. intros k1 id1 H1. apply (H k1 id1). now right. }
  now rewrite E.
Qed.
Print Assumptions C115_unknown_ignored_refuted.

(** ** a concrete case: K times e to the power of one, for two bins and an array of two sets of (a, K) *)
Definition ex_fn (g : list R) (d : list (nat * R)) : res (list R) :=
  match d with [(1%nat, a); (2%nat, k)] => Ok (map (fun w => k * w + a) (widths g)) | _ => Err KeyError end.
Definition ex_model : cmodel := {| c_ids := [1; 2]%nat; c_names := [s2l "m.a"; s2l "m.K"]; c_all := [(s2l "m.a", 1%nat); (s2l "m.K", 2%nat)];
  c_default := [(1%nat, 0); (2%nat, 1)]; c_fn := ex_fn; c_comps := None; c_add := true |}.
Lemma ex_traceable g : traceable (ex_fn g).
Proof.
  intros d d' E. unfold ex_fn.
  destruct d as [|[i a] [|[j k] [|p d]]]; destruct d' as [|[i' a'] [|[j' k'] [|p' d']]]; try discriminate E; cbn [map fst] in E;
    repeat match goal with |- context[match ?n with O => _ | Datatypes.S _ => _ end] => is_var n; destruct n end; try congruence; try reflexivity; try (now rewrite !map_length).
Qed.
Example C115_sound : forall g, sound ex_model g.
Proof. intros g. split; [discriminate|]. split; [reflexivity|]. split; [discriminate|]. split; [apply ex_traceable|]. discriminate. Qed.
Definition ex_arg : nd := {| sh := [2; 2]%nat; at_ := fun i => match i with [k; 0%nat] => INR k | [k; _] => 3 | _ => 0 end |}.
Example C115_holds : holds ex_model [2%nat] (AArr ex_arg).
Proof. reflexivity. Qed.
Example C115_value : exists v, eval ex_model [1; 2; 4] (AArr ex_arg) = Ok v /\ sh v = [2; 2]%nat /\
  at_ v [1; 0]%nat = 3 * (2 - 1) + 1 /\ at_ v [0; 1]%nat = 3 * (4 - 2) + 0.
Proof. eexists. split; [reflexivity|]. split; [reflexivity|]. split; cbn; lra. Qed.
