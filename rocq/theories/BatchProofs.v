(** Proofs about Batch.v. *)
From Coq Require Import Ascii String Permutation.
From Verif Require Import RBase Data Namespace NamespaceProofs FitInput HelperData Batch OgipProofs DataProofs.
From Coq Require Import List.
Open Scope list_scope.

(** ** specification: the [i]-th entry of everything comes from the fit of the [i]-th data set from the [i]-th
    initial value *)
Record shaped (n : nat) (r : result) : Prop := {
  sh_data : length (r_data r) = n; sh_params : Forall (fun e => length (snd e) = n) (r_params r);
  sh_models : Forall (fun e => length (snd e) = n) (r_models r); sh_total : length (r_total r) = n;
  sh_group : Forall (fun e => length (snd e) = n) (r_group r); sh_point : Forall (fun e => length (snd e) = n) (r_point r);
  sh_valid : length (r_valid r) = n }.
Section Spec.
Variables (names : list str) (fit : dict (list R) -> list R -> fitted).
Definition fit_of (rows : list (dict (list R))) (init : list (list R)) (i : nat) : fitted := fit (pick names (nth i rows [])) (nth i init []).
Definition tree_of {A B} (n : nat) (F : nat -> str -> A) (t : dict B) : dict (list A) :=
  map (fun e => (fst e, map (fun i => F i (fst e)) (seq 0 n))) t.
Definition all_fits (n : nat) (r : result) (init : list (list R)) : result :=
  let F := fit_of (r_data r) init in
  {| r_data := r_data r; r_params := tree_of n (fun i => ft_param (F i)) (r_params r);
     r_models := tree_of n (fun i => ft_model (F i)) (r_models r);
     r_total := map (fun i => ft_total (F i)) (seq 0 n);
     r_group := tree_of n (fun i => ft_group (F i)) (r_group r);
     r_point := tree_of n (fun i => ft_point (F i)) (r_point r);
     r_valid := map (fun i => ft_valid (F i)) (seq 0 n) |}.
Definition all_calls (n : nat) (rows : list (dict (list R))) (init : list (list R)) : list call :=
  map (fun i => (pick names (nth i rows []), nth i init [])) (seq 0 n).
End Spec.

Lemma set_nth_length {A} i (y : A) l : length (set_nth i y l) = length l.
Proof. revert i; induction l as [|x l IH]; intros [|i]; cbn; auto. Qed.
Lemma set_nth_app {A} (l1 : list A) x y l2 : set_nth (length l1) y (l1 ++ x :: l2) = l1 ++ y :: l2.
Proof. induction l1 as [|z l1 IH]; cbn; [reflexivity|]. now rewrite IH. Qed.
Lemma fold_set {A} (g : nat -> A) m : forall l, (m <= length l)%nat ->
  fold_left (fun l i => set_nth i (g i) l) (seq 0 m) l = map g (seq 0 m) ++ skipn m l.
Proof.
  induction m as [|m IH]; intros l H; [reflexivity|].
  rewrite seq_S, fold_left_app, map_app. cbn [fold_left map Nat.add]. rewrite IH by lia.
  destruct (skipn m l) as [|x s] eqn:E; [pose proof (skipn_length m l); rewrite E in *; cbn in *; lia|].
  assert (L : length (map g (seq 0 m)) = m) by (now rewrite map_length, seq_length).
  rewrite <- L at 1. rewrite set_nth_app, <- app_assoc. cbn [List.app].
  assert (E2 : skipn (S m) l = s).
  { clear - E. revert l E. induction m as [|m IH]; intros [|y l] E; cbn in *; try congruence; try discriminate. now apply IH. }
  now rewrite E2.
Qed.
Lemma fold_set_all {A} (g : nat -> A) n l : length l = n ->
  fold_left (fun l i => set_nth i (g i) l) (seq 0 n) l = map g (seq 0 n).
Proof. intros H. rewrite fold_set by lia. rewrite skipn_all2 by lia. apply app_nil_r. Qed.

Section Loop.
Variables (names : list str) (fit : dict (list R) -> list R -> fitted).
Notation fito := (fit_of names fit).
Lemma fold_set_tree {A} (v : nat -> str -> A) m : forall t,
  fold_left (fun t i => set_tree i (v i) t) (seq 0 m) t =
  map (fun e => (fst e, fold_left (fun l i => set_nth i (v i (fst e)) l) (seq 0 m) (snd e))) t.
Proof.
  induction m as [|m IH]; intros t; [cbn; symmetry; rewrite <- (map_id t) at 2; apply map_ext; intros []; reflexivity|].
  rewrite seq_S, fold_left_app. cbn [fold_left Nat.add]. rewrite IH. unfold set_tree. rewrite map_map. apply map_ext.
  intros e. cbn [fst snd]. now rewrite fold_left_app.
Qed.
Lemma loop_closed m r init calls :
  fori_loop names fit m (r, init, calls) =
  ({| r_data := r_data r;
      r_params := fold_left (fun t i => set_tree i (ft_param (fito (r_data r) init i)) t) (seq 0 m) (r_params r);
      r_models := fold_left (fun t i => set_tree i (ft_model (fito (r_data r) init i)) t) (seq 0 m) (r_models r);
      r_total := fold_left (fun t i => set_nth i (ft_total (fito (r_data r) init i)) t) (seq 0 m) (r_total r);
      r_group := fold_left (fun t i => set_tree i (ft_group (fito (r_data r) init i)) t) (seq 0 m) (r_group r);
      r_point := fold_left (fun t i => set_tree i (ft_point (fito (r_data r) init i)) t) (seq 0 m) (r_point r);
      r_valid := fold_left (fun t i => set_nth i (ft_valid (fito (r_data r) init i)) t) (seq 0 m) (r_valid r) |},
   init, calls ++ all_calls names m (r_data r) init).
Proof.
  unfold fori_loop. induction m as [|m IH]; [destruct r; cbn; now rewrite app_nil_r|].
  unfold all_calls. rewrite seq_S, !fold_left_app, map_app, IH. cbn [fold_left Nat.add map].
  unfold fit_once. cbn [r_data r_params r_models r_total r_group r_point r_valid]. rewrite <- app_assoc. reflexivity.
Qed.
Lemma tree_filled {A} (v : nat -> str -> A) n t : Forall (fun e => length (snd e) = n) t ->
  fold_left (fun t i => set_tree i (v i) t) (seq 0 n) t = tree_of n v t.
Proof.
  intros H. rewrite fold_set_tree. unfold tree_of. apply map_ext_in. intros e He. rewrite Forall_forall in H.
  now rewrite fold_set_all by (apply (H e He)).
Qed.
Lemma loop_filled n r init calls : shaped n r ->
  fori_loop names fit n (r, init, calls) = (all_fits names fit n r init, init, calls ++ all_calls names n (r_data r) init).
Proof.
  intros H. rewrite loop_closed. unfold all_fits.
  rewrite !tree_filled by apply H. rewrite !fold_set_all by apply H. reflexivity.
Qed.
Lemma sequence_filled n r init : shaped n r -> fit_in_sequence names fit r init = (all_fits names fit n r init, all_calls names n (r_data r) init).
Proof. intros H. unfold fit_in_sequence. rewrite (sh_valid _ _ H), (loop_filled n r init [] H). reflexivity. Qed.

(** ** the parts *)
Lemma part_length {A} b k p (l : list A) : length l = (p * b)%nat -> (k < p)%nat -> length (part b k l) = b.
Proof. intros H K. unfold part. rewrite firstn_length, skipn_length, H. nia. Qed.
Lemma part_nth {A} b k (l : list A) i d : (i < b)%nat -> nth i (part b k l) d = nth (k * b + i) l d.
Proof. intros H. unfold part. rewrite nth_firstn by exact H. now rewrite nth_skipn. Qed.
Lemma skipn_add {A} (l : list A) : forall a b, skipn a (skipn b l) = skipn (b + a) l.
Proof. induction l as [|x l IH]; intros a [|b]; cbn; auto; now rewrite ?skipn_nil. Qed.
Lemma concat_parts {A} b p (l : list A) : length l = (p * b)%nat -> concat (map (fun k => part b k l) (seq 0 p)) = l.
Proof.
  revert l. induction p as [|p IH]; intros l H; [destruct l; [reflexivity|discriminate]|].
  cbn [seq map concat]. unfold part at 1. cbn [Nat.mul skipn]. rewrite <- seq_shift, map_map.
  transitivity (firstn b l ++ skipn b l); [|apply firstn_skipn]. f_equal.
  transitivity (concat (map (fun k => part b k (skipn b l)) (seq 0 p))); [|apply IH; rewrite skipn_length; lia].
  f_equal. apply map_ext. intros k. unfold part. rewrite skipn_add. reflexivity.
Qed.
Lemma map_seq_add {A} (g : nat -> A) s b : forall j, map (fun i => g (s + i)%nat) (seq j b) = map g (seq (s + j) b).
Proof. induction b as [|b IH]; intros j; [reflexivity|]. cbn [seq map]. f_equal. rewrite IH. now rewrite Nat.add_succ_r. Qed.
Lemma concat_blocks {A} (g : nat -> A) b p : concat (map (fun k => map (fun i => g (k * b + i)%nat) (seq 0 b)) (seq 0 p)) = map g (seq 0 (p * b)).
Proof.
  induction p as [|p IH]; [reflexivity|]. rewrite seq_S, map_app, concat_app. cbn [map concat Nat.add]. rewrite IH, app_nil_r.
  replace (S p * b)%nat with (p * b + b)%nat by lia. rewrite seq_app, map_app. f_equal. cbn [Nat.add].
  rewrite map_seq_add. now rewrite Nat.add_0_r.
Qed.
Lemma cat_tree_map {A B} (t : dict (list A)) (h : nat -> str * B -> list A) (u : dict B) ks : map fst t = map fst u ->
  cat_tree t (map (fun k => map (fun e => (fst e, h k e)) u) ks) = map (fun e => (fst e, concat (map (fun k => h k e) ks))) u.
Proof.
  intros H. induction ks as [|k ks IH]; cbn [map concat].
  - unfold cat_tree, empty_tree. cbn [fold_right]. clear h. revert u H. induction t as [|[a x] t IHt]; intros [|[b y] u] H; try discriminate; [reflexivity|].
    cbn in *. injection H as -> H. now rewrite (IHt u H).
  - change (cat_tree t (?a :: ?l)) with (app_tree a (cat_tree t l)). unfold app_tree. unfold cat_tree in IH. unfold cat_tree. rewrite IH, zip2_map. reflexivity.
Qed.
Lemma part_shaped b p k r : shaped (p * b) r -> (k < p)%nat -> shaped b (part_result b k r).
Proof.
  intros H K. assert (T : forall A (t : dict (list A)), Forall (fun e => length (snd e) = (p * b)%nat) t -> Forall (fun e => length (snd e) = b) (part_tree b k t)).
  { intros A t F. unfold part_tree. apply Forall_map. eapply Forall_impl; [|exact F]. intros e E. cbn [snd]. now apply (part_length b k p). }
  constructor; cbn [part_result r_data r_params r_models r_total r_group r_point r_valid]; try (apply T; apply H); apply (part_length b k p); try apply H; exact K.
Qed.
Lemma tree_parts {A B} (F : nat -> str -> A) b p (t : dict (list A)) (u : dict B) : map fst t = map fst u ->
  cat_tree t (map (fun k => tree_of b (fun i => F (k * b + i)%nat) u) (seq 0 p)) = tree_of (p * b) F u.
Proof.
  intros H. unfold tree_of. rewrite (cat_tree_map t (fun k e => map (fun i => F (k * b + i)%nat (fst e)) (seq 0 b)) u); [|exact H].
  apply map_ext. intros e. f_equal. exact (concat_blocks (fun i => F i (fst e)) b p).
Qed.
Lemma tree_of_part {A B} b k n (F : nat -> str -> A) (t : dict (list B)) : tree_of n F (part_tree b k t) = tree_of n F t.
Proof. unfold tree_of, part_tree. rewrite map_map. reflexivity. Qed.
Lemma tree_of_ext {A B} n (F G : nat -> str -> A) (t : dict B) : (forall i, (i < n)%nat -> F i = G i) -> tree_of n F t = tree_of n G t.
Proof. intros H. unfold tree_of. apply map_ext. intros e. f_equal. apply map_ext_in. intros i Hi. apply in_seq in Hi. now rewrite H by lia. Qed.
Theorem parallel_filled p b r init : (0 < p)%nat -> shaped (p * b) r -> length init = (p * b)%nat ->
  fit_in_parallel names fit p r init = Ok (all_fits names fit (p * b) r init, all_calls names (p * b) (r_data r) init).
Proof.
  intros Hp H Hi. unfold fit_in_parallel. rewrite (sh_valid _ _ H).
  destruct (Nat.eqb_spec p 0) as [E|_]; [lia|]. rewrite (Nat.mul_comm p b), Nat.div_mul, Nat.mod_mul, Nat.eqb_refl by lia. cbn [negb].
  rewrite (Nat.mul_comm b p).
  set (init_ := init) in *.
  assert (E : map (fun k => fori_loop names fit b (part_result b k r, part b k init_, [])) (seq 0 p) =
    map (fun k => (all_fits names fit b (part_result b k r) (part b k init_), part b k init_, all_calls names b (r_data (part_result b k r)) (part b k init_))) (seq 0 p)).
  { apply map_ext_in. intros k Hk. apply in_seq in Hk. rewrite (loop_filled b); [reflexivity|]. apply (part_shaped b p); [exact H|lia]. }
  rewrite E, !map_map. cbn [fst snd]. f_equal. f_equal.
  - assert (F : forall k i, (i < b)%nat -> fito (r_data (part_result b k r)) (part b k init_) i = fito (r_data r) init_ (k * b + i)).
    { intros k i Hlt. unfold fit_of. cbn [part_result r_data]. rewrite !part_nth by exact Hlt. reflexivity. }
    unfold cat_result. rewrite !map_map. cbn [all_fits r_data r_params r_models r_total r_group r_point r_valid]. unfold all_fits.
    assert (T : forall A (g : fitted -> str -> A) (t : dict (list A)),
      cat_tree t (map (fun k => tree_of b (fun i => g (fito (r_data (part_result b k r)) (part b k init_) i)) (part_tree b k t)) (seq 0 p)) =
      tree_of (p * b) (fun i => g (fito (r_data r) init_ i)) t).
    { intros A g t. rewrite <- (tree_parts (fun i => g (fito (r_data r) init_ i)) b p t t eq_refl). f_equal. apply map_ext. intros k.
      rewrite tree_of_part. apply tree_of_ext. intros i Hlt. now rewrite F. }
    assert (V : forall A (g : fitted -> A),
      concat (map (fun k => map (fun i => g (fito (r_data (part_result b k r)) (part b k init_) i)) (seq 0 b)) (seq 0 p)) =
      map (fun i => g (fito (r_data r) init_ i)) (seq 0 (p * b))).
    { intros A g. rewrite <- (concat_blocks (fun i => g (fito (r_data r) init_ i)) b p). f_equal. apply map_ext. intros k.
      apply map_ext_in. intros i Hlt. apply in_seq in Hlt. now rewrite F by lia. }
    f_equal.
    + cbn [part_result r_data]. apply concat_parts. apply H.
    + apply (T _ ft_param).
    + apply (T _ ft_model).
    + apply (V _ ft_total).
    + apply (T _ ft_group).
    + apply (T _ ft_point).
    + apply (V _ ft_valid).
  - unfold all_calls. rewrite <- (concat_blocks (fun i => (pick names (nth i (r_data r) []), nth i init_ [])) b p). f_equal. apply map_ext. intros k.
    apply map_ext_in. intros i Hlt. apply in_seq in Hlt. cbn [part_result r_data]. rewrite !part_nth by lia. reflexivity.
Qed.
Lemma parallel_refused p r init : (0 < p)%nat -> (length (r_valid r) mod p <> 0)%nat -> fit_in_parallel names fit p r init = Err TypeError.
Proof.
  intros Hp H. unfold fit_in_parallel. destruct (Nat.eqb_spec p 0) as [E|_]; [lia|].
  destruct (Nat.eqb_spec (length (r_valid r) mod p) 0) as [E|_]; [easy|reflexivity].
Qed.
End Loop.

(** ** the container *)
Lemma puts_forall {V} (P : V -> Prop) kvs : forall d, Forall (fun e => P (snd e)) d -> Forall (fun e => P (snd e)) kvs -> Forall (fun e => P (snd e)) (puts d kvs).
Proof.
  assert (Q : forall k v d, Forall (fun e : str * V => P (snd e)) d -> P v -> Forall (fun e => P (snd e)) (put d k v)).
  { intros k v d. induction d as [|[k' v'] d IH]; intros F Hv; [repeat constructor; exact Hv|]. inversion F; subst.
    cbn [put]. destruct (str_eqb k k'); constructor; auto. }
  induction kvs as [|[k v] kvs IH]; intros d F G; [exact F|]. inversion G; subst. cbn [puts fold_left]. apply IH; [|assumption]. now apply Q.
Qed.
Lemma container_shaped stats params rows : shaped (length rows) (container stats params rows).
Proof.
  constructor; cbn [container r_data r_params r_models r_total r_group r_point r_valid]; rewrite ?repeat_length; try reflexivity;
  apply (puts_forall (fun c => length c = length rows)); try constructor; apply Forall_map, Forall_forall; intros e _; apply repeat_length.
Qed.
Lemma get_puts_absent {V} k kvs : forall d : dict V, ~ In k (map fst kvs) -> get (puts d kvs) k = get d k.
Proof.
  induction kvs as [|[k' v] kvs IH]; intros d H; [reflexivity|]. cbn [puts fold_left]. cbn in H. change (get (puts (put d k' v) kvs) k = get d k).
  rewrite IH by tauto. rewrite get_put. destruct (str_eqb_spec k k') as [->|N]; [tauto|reflexivity].
Qed.
Lemma get_puts_const {V} k (v : V) kvs : forall d, (forall e, In e kvs -> snd e = v) -> In k (map fst kvs) -> get (puts d kvs) k = Some v.
Proof.
  induction kvs as [|[k' w] kvs IH]; intros d H Hin; [destruct Hin|]. cbn [puts fold_left]. change (get (puts (put d k' w) kvs) k = Some v).
  destruct (in_dec str_eq_dec k (map fst kvs)) as [I|I]; [apply IH; [intros; apply H; now right|exact I]|].
  rewrite get_puts_absent by exact I. destruct Hin as [E|E]; [|easy]. cbn in E. subst k'. rewrite get_put.
  destruct (str_eqb_spec k k); [|easy]. f_equal. now apply (H (k, w)), or_introl.
Qed.
Lemma get_puts {V} k (v : V) kvs : forall d, NoDup (map fst kvs) -> In (k, v) kvs -> get (puts d kvs) k = Some v.
Proof.
  induction kvs as [|[k' w] kvs IH]; intros d N Hin; [destruct Hin|]. cbn [map fst] in N. inversion N as [|? ? Nk Nr]; subst.
  cbn [puts fold_left]. change (get (puts (put d k' w) kvs) k = Some v). destruct Hin as [E|Hin].
  - injection E as -> ->. rewrite get_puts_absent by exact Nk. rewrite get_put. now destruct (str_eqb_spec k k).
  - now apply IH.
Qed.
Lemma get_tree_of {A B} n (F : nat -> str -> A) (t : dict B) k : get (tree_of n F t) k =
  match get t k with Some _ => Some (map (fun i => F i k) (seq 0 n)) | None => None end.
Proof.
  unfold tree_of. induction t as [|[k' x] t IH]; [reflexivity|]. cbn [map fst get]. destruct (str_eqb_spec k k') as [->|N]; [reflexivity|exact IH].
Qed.
