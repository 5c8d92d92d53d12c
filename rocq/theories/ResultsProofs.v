(** Lemmas on cached simulation results. *)
From Coq Require Import Ascii String.
From Verif Require Import RBase Data Namespace NamespaceProofs FitInput HelperData HelperDataProofs Batch BatchProofs Prop_Batch Results CompileProofs.
From Coq Require Import List.
Open Scope list_scope.

(** ** a small specification: counting the elements of a list with a property *)
Inductive count {A} (P : A -> Prop) : list A -> nat -> Prop :=
| count_nil : count P [] 0
| count_yes x l n : P x -> count P l n -> count P (x :: l) (S n)
| count_no x l n : ~ P x -> count P l n -> count P (x :: l) n.
(** [q] is the proportion of the elements of [l] with property [P] among those with property [V]; undefined when there are none *)
Definition proportion {A} (V P : A -> Prop) (l : list A) (q : option R) : Prop :=
  exists m k, count V l m /\ count (fun x => V x /\ P x) l k /\
    (m = 0%nat -> q = None) /\ ((0 < m)%nat -> q = Some (INR k / INR m)).

Lemma count_fun {A} (P : A -> Prop) l n n' : count P l n -> count P l n' -> n = n'.
Proof. intros H. revert n'. induction H as [|x l n Hx H IH|x l n Hx H IH]; intros n' H'; inversion H'; subst; auto; easy. Qed.
Lemma count_le {A} (P Q : A -> Prop) l m k : (forall x, P x -> Q x) -> count P l k -> count Q l m -> (k <= m)%nat.
Proof.
  intros I H. revert m. induction H as [|x l n Hx H IH|x l n Hx H IH]; intros m H'; inversion H'; subst.
  - lia.
  - apply IH in H4. lia.
  - exfalso. auto.
  - apply IH in H4. lia.
  - auto.
Qed.
Lemma proportion_unit {A} (V P : A -> Prop) l q x : proportion V P l q -> q = Some x -> 0 <= x <= 1.
Proof.
  intros (m & k & Cm & Ck & Z & S) E. destruct m as [|m]; [rewrite Z in E; easy|].
  rewrite S in E by lia. injection E as <-. pose proof (count_le _ _ l _ _ (fun y H => proj1 H) Ck Cm) as L. apply le_INR in L.
  pose proof (pos_INR k). assert (0 < INR (Datatypes.S m)) by (apply lt_0_INR; lia). split.
  - apply Rmult_le_pos; [lra|]. apply Rlt_le, Rinv_0_lt_compat. assumption.
  - apply (Rmult_le_reg_r (INR (Datatypes.S m))); [lra|]. unfold Rdiv. rewrite Rmult_assoc, Rinv_l by lra. lra.
Qed.

(** ** masks *)
Lemma keep_map {A B} (v : A -> bool) (g : A -> B) l : keep (map v l) (map g l) = map g (filter v l).
Proof.
  unfold keep. induction l as [|x l IH]; [reflexivity|]. cbn [map combine filter fst snd]. destruct (v x); cbn [map snd]; [f_equal|]; exact IH.
Qed.
Lemma count_filter {A} (v : A -> bool) l : count (fun x => v x = true) l (length (filter v l)).
Proof. induction l as [|x l IH]; cbn; [constructor|]. destruct (v x) eqn:E; cbn; constructor; auto. now rewrite E. Qed.
Lemma count_filter2 {A} (v : A -> bool) (g : A -> R) o l : count (fun x => v x = true /\ o <= g x) l (length (filter (fun s => Rleb o s) (map g (filter v l)))).
Proof.
  induction l as [|x l IH]; cbn; [constructor|]. destruct (v x) eqn:E; cbn.
  - destruct (Rleb_spec o (g x)) as [H|H]; cbn; constructor; auto; tauto.
  - constructor; auto. now rewrite E.
Qed.
Lemma pvalue_spec {A} (v : A -> bool) (g : A -> R) o l :
  proportion (fun x => v x = true) (fun x => o <= g x) l (pvalue o (keep (map v l) (map g l))).
Proof.
  rewrite keep_map. exists (length (filter v l)), (length (filter (fun s => Rleb o s) (map g (filter v l)))).
  split; [apply count_filter|]. split; [apply count_filter2|]. unfold pvalue. rewrite map_length. split.
  - intros ->. reflexivity.
  - intros H. destruct (Nat.eqb_spec (length (filter v l)) 0) as [E|_]; [lia|reflexivity].
Qed.

(** ** the filled container *)
Definition of_fits (stats : dict stat) (params : list str) (fs : list fitted) (r : result) : Prop :=
  r_total r = map ft_total fs /\ r_valid r = map ft_valid fs /\
  (forall k, In k (map fst stats) -> get (r_group r) k = Some (map (fun f => ft_group f k) fs)) /\
  (forall k, In k (map fst stats) -> get (r_point r) k = Some (map (fun f => ft_point f k) fs)) /\
  (forall k, In k params -> get (r_params r) k = Some (map (fun f => ft_param f k) fs)) /\
  (forall k, In k (model_names stats) -> get (r_models r) k = Some (map (fun f => ft_model f k) fs)).
Section B.
Variables (data : dict fdata) (stats : dict stat) (free params : list str) (U : list R -> list R).
Variables (fit : dict (list R) -> list R -> fitted) (devices : nat).
Lemma batch_fits ip sim parallel np r calls : batch_fit data stats free params U fit devices ip sim parallel np = Ok (r, calls) ->
  exists rows, sim = Many rows /\ r_data r = rows /\ length calls = length rows /\ of_fits stats params (map (fun c : call => fit (fst c) (snd c)) calls) r.
Proof.
  intros H. unfold batch_fit in H. destruct (get_parallel_number devices np) as [p|] eqn:Ep; [|discriminate]. cbn [bind] in H.
  destruct sim as [a|rows|]; [discriminate| |discriminate]. destruct (filter _ (ndata data)) as [|x l]; [discriminate|].
  destruct (make_init free (length rows) ip) as [init|] eqn:Ei; [|discriminate]. cbn [bind] in H. apply make_init_inv in Ei as [Li Hi].
  destruct (widths_ok data); [|discriminate]. cbn [negb] in H.
  pose proof (container_shaped stats params rows) as Sh. set (r0 := container stats params rows) in *. set (names := group_names stats) in *.
  assert (E : r = all_fits names fit (length rows) r0 (map U init) /\ calls = all_calls names (length rows) (r_data r0) (map U init)).
  { destruct parallel.
    - destruct (Nat.eq_dec p 0) as [->|Np]; [discriminate H|].
      destruct (Nat.eq_dec (length rows mod p) 0) as [M|M].
      + assert (D : length rows = (p * (length rows / p))%nat) by (apply Nat.div_exact; [exact Np|exact M]).
        rewrite (parallel_filled names fit p (length rows / p)) in H; [|lia|rewrite <- D; exact Sh|rewrite map_length; congruence].
        rewrite <- D in H. injection H as <- <-. now split.
      + rewrite parallel_refused in H; [discriminate|lia|]. rewrite (sh_valid _ _ Sh). exact M.
    - rewrite (sequence_filled names fit (length rows) _ _ Sh) in H. injection H as <- <-. now split. }
  destruct E as [-> ->]. exists rows. split; [reflexivity|]. split; [reflexivity|]. split; [unfold all_calls; now rewrite map_length, seq_length|].
  assert (P : forall A (v : A) lst k, In k lst -> exists c, get (puts [] (map (fun k => (k, v)) lst)) k = Some c).
  { intros A v lst k Hk. exists v. apply get_puts_const; [intros e He; apply in_map_iff in He as (? & <- & _); reflexivity|]. rewrite map_map. cbn. now rewrite map_id. }
  unfold of_fits. cbn [all_fits r_params r_models r_total r_group r_point r_valid r_data]. split; [unfold all_calls; now rewrite !map_map|]. split; [unfold all_calls; now rewrite !map_map|].
  split; [|split; [|split]]; intros k Hk; rewrite get_tree_of.
  - assert (G : exists c, get (r_group r0) k = Some c) by exact (P _ (repeat 0 (length rows)) _ k Hk). destruct G as [c ->]. unfold all_calls. now rewrite !map_map.
  - assert (G : exists c, get (r_point r0) k = Some c) by exact (P _ (repeat ([] : list R) (length rows)) _ k Hk). destruct G as [c ->]. unfold all_calls. now rewrite !map_map.
  - assert (G : exists c, get (r_params r0) k = Some c) by exact (P _ (repeat 0 (length rows)) params k Hk). destruct G as [c ->]. unfold all_calls. now rewrite !map_map.
  - assert (G : exists c, get (r_models r0) k = Some c) by exact (P _ (repeat ([] : list R) (length rows)) (model_names stats) k Hk). destruct G as [c ->]. unfold all_calls. now rewrite !map_map.
Qed.
End B.

Lemma get_keep_tree {A} m (t : dict (list A)) k : get (keep_tree m t) k = option_map (keep m) (get t k).
Proof. unfold keep_tree. induction t as [|[k' x] t IH]; [reflexivity|]. cbn [map fst snd get]. destruct (str_eqb k k'); [reflexivity|exact IH]. Qed.
Lemma get_map {A B} (g : str -> A -> B) (t : dict A) k : get (map (fun e => (fst e, g (fst e) (snd e))) t) k = option_map (g k) (get t k).
Proof. induction t as [|[k' x] t IH]; [reflexivity|]. cbn [map fst snd get]. destruct (str_eqb_spec k k') as [->|]; [reflexivity|exact IH]. Qed.

(** ** simulated batches *)
Lemma mapE_length {A B} (f : A -> res B) l : forall r, mapE f l = Ok r -> length r = length l.
Proof.
  induction l as [|x l IH]; intros r H; cbn in H; [now injection H as <-|]. destruct (f x); [|discriminate]. cbn in H.
  destruct (mapE f l) eqn:E; [|discriminate]. cbn in H. injection H as <-. cbn. now rewrite (IH _ eq_refl).
Qed.
Lemma simulate_single draw data stats seed m n s : simulate draw data stats seed (Single m) n = Ok s ->
  (n = 1%Z /\ exists d, s = Single d) \/ (n <> 1%Z /\ (0 <= n)%Z /\ exists rows, s = Many rows /\ length rows = Z.to_nat n).
Proof.
  unfold simulate. destruct (simulators data stats) as [sims|]; [|discriminate]. cbn [bind]. destruct (row_request sims m) as [rq|]; [|discriminate]. cbn [bind].
  destruct (Z.eqb_spec n 1) as [->|N].
  - destruct (get_counts_data _ _ _) as [d|]; [|discriminate]. cbn [bind]. intros H. injection H as <-. left. eauto.
  - destruct (Z.ltb_spec n 0) as [L|L]; [discriminate|]. unfold sim_rows. destruct (mapE _ _) as [ds|] eqn:E; [|discriminate]. cbn [bind]. intros H. injection H as <-.
    right. split; [exact N|]. split; [exact L|]. exists ds. split; [reflexivity|]. apply mapE_length in E. now rewrite seq_length, repeat_length in E.
Qed.
Lemma simulate_many draw data stats seed ms s : simulate draw data stats seed (Many ms) 1 = Ok s -> exists rows, s = Many rows /\ length rows = length ms.
Proof.
  unfold simulate. destruct (simulators data stats) as [sims|]; [|discriminate]. cbn [bind]. destruct (mapE (row_request sims) ms) as [rq|] eqn:Eq; [|discriminate]. cbn [bind].
  change (1 =? 1)%Z with true. cbv iota. unfold sim_rows. destruct (mapE _ (seq 0 _)) as [ds|] eqn:E; [|discriminate]. cbn [bind]. intros H. injection H as <-.
  exists ds. split; [reflexivity|]. apply mapE_length in E, Eq. rewrite seq_length in E. congruence.
Qed.
