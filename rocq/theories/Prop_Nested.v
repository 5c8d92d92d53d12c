(** C81: nested samplers see the priors and the names of the model. *)
From Coq Require Import Ascii String.
From Verif Require Import RBase Namespace NamespaceProofs Nested.
From Coq Require Import List Lia Permutation Sorted.
Open Scope list_scope.

(** ** labels of array valued parameters *)
(** position of an entry in the flattened (row-major) array *)
Fixpoint flat_position (shape ix : list nat) : nat :=
  match shape, ix with n :: s, i :: r => (i * fold_right Nat.mul 1 s + flat_position s r)%nat | _, _ => O end.
(** an index of an array of this shape *)
Definition index_of (shape ix : list nat) : Prop := Forall2 lt ix shape.
Definition size (shape : list nat) : nat := fold_right Nat.mul 1%nat shape.

Lemma flat_map_const_length {A B} (f : A -> list B) l k : (forall x, length (f x) = k) -> length (flat_map f l) = (length l * k)%nat.
Proof. intros H. induction l as [|x l IH]; [reflexivity|]. cbn. rewrite app_length, IH, H. lia. Qed.
Lemma indices_length shape : length (indices shape) = size shape.
Proof. induction shape as [|n s IH]; [reflexivity|]. cbn. rewrite (flat_map_const_length _ _ (size s)); [now rewrite seq_length|]. intros i. now rewrite map_length. Qed.
Lemma in_indices shape ix : In ix (indices shape) <-> index_of shape ix.
Proof.
  revert ix. induction shape as [|n s IH]; intros ix; cbn.
  - split; [intros [<-|[]]; constructor|]. intros H. inversion H. now left.
  - rewrite in_flat_map. split.
    + intros (i & Hi & H). apply in_map_iff in H as (r & <- & H). apply in_seq in Hi. constructor; [lia|now apply IH].
    + intros H. inversion H as [|i m r s' Hi Hr]; subst. exists i. split; [apply in_seq; lia|]. apply in_map. now apply IH.
Qed.
Lemma nth_flat_map_const {A B} (f : A -> list B) l k i j d a : (forall x, length (f x) = k) -> (i < length l)%nat -> (j < k)%nat -> nth (i * k + j) (flat_map f l) d = nth j (f (nth i l a)) d.
Proof.
  intros H. revert i. induction l as [|x l IH]; intros i Hi Hj; [cbn in Hi; lia|]. cbn [flat_map]. destruct i as [|i]; cbn [nth Nat.mul Nat.add].
  - now rewrite app_nth1 by (rewrite H; lia).
  - rewrite app_nth2 by (rewrite H; lia). rewrite H. replace (k + i * k + j - k)%nat with (i * k + j)%nat by lia. apply IH; [cbn in Hi; lia|exact Hj].
Qed.
Lemma flat_position_lt shape ix : index_of shape ix -> (flat_position shape ix < size shape)%nat.
Proof. intros H. unfold index_of in H. induction H as [|i n r s Hi Hr IH]; cbn; [lia|]. fold (size s) in *. nia. Qed.
Lemma nth_indices shape ix : index_of shape ix -> nth (flat_position shape ix) (indices shape) [] = ix.
Proof.
  intros H. unfold index_of in H. induction H as [|i n r s Hi Hr IH]; [reflexivity|]. cbn [flat_position indices]. fold (size s).
  rewrite (nth_flat_map_const _ _ (size s) i _ _ O).
  - rewrite seq_nth by exact Hi. cbn [Nat.add]. rewrite (nth_indep _ [] (cons i [])) by (rewrite map_length, indices_length; now apply flat_position_lt). rewrite map_nth. now rewrite IH.
  - intros x. now rewrite map_length, indices_length.
  - now rewrite seq_length.
  - now apply flat_position_lt.
Qed.
Lemma indices_nodup shape : NoDup (indices shape).
Proof.
  induction shape as [|n s IH]; [repeat constructor; intros []|]. cbn [indices]. generalize (seq_NoDup n 0). generalize (seq 0 n). intros l Hl. induction Hl as [|i l Hi Hl IHl]; [constructor|]. cbn [flat_map].
  apply NoDup_app_disj; [|exact IHl|].
  - apply FinFun.Injective_map_NoDup; [|exact IH]. intros a b E. now injection E.
  - intros x Hx Hf. apply in_map_iff in Hx as (r & <- & _). apply in_flat_map in Hf as (k & Hk & H). apply in_map_iff in H as (r' & E & _). injection E as -> _. contradiction.
Qed.
Lemma comma_not_digit : ~ is_digit ","%char. Proof. unfold is_digit. cbn. intuition discriminate. Qed.
Lemma no_comma n : ~ In ","%char (nat_str n).
Proof. intros H. assert (F := uint_digits (Nat.to_uint n)). rewrite Forall_forall in F. exact (comma_not_digit (F _ H)). Qed.
Lemma comma_join_inj a b : length a = length b -> comma_join (map nat_str a) = comma_join (map nat_str b) -> a = b.
Proof.
  revert b. induction a as [|x a IH]; intros [|y b] L E; cbn in L; try lia; [reflexivity|]. destruct a as [|x' a], b as [|y' b]; cbn in L; try lia.
  - cbn in E. f_equal. now apply nat_str_inj.
  - change (nat_str x ++ ","%char :: comma_join (map nat_str (x' :: a)) = nat_str y ++ ","%char :: comma_join (map nat_str (y' :: b))) in E.
    apply split_first in E as (E1 & E2); try apply no_comma. apply nat_str_inj in E1. subst. f_equal. apply IH; [cbn; lia|exact E2].
Qed.
(** one label per entry, in the order of the flattened array, no two alike *)
Theorem C81_labels : forall name shape,
  length (ravel_params_names name shape) = size shape /\ NoDup (ravel_params_names name shape) /\
  (shape = [] -> ravel_params_names name shape = [name]) /\
  (shape <> [] -> forall ix, index_of shape ix -> nth (flat_position shape ix) (ravel_params_names name shape) [] = index_label name ix).
Proof.
  intros name shape. destruct shape as [|n s].
  - split; [reflexivity|]. split; [cbn; repeat constructor; intros []|]. split; [reflexivity|congruence].
  - assert (U : ravel_params_names name (n :: s) = map (index_label name) (indices (n :: s))) by reflexivity. rewrite U. clear U. set (sh := n :: s). split; [now rewrite map_length, indices_length|]. split; [|split; [discriminate|]].
    + generalize (indices_nodup sh). assert (I : forall x, In x (indices sh) -> length x = length sh) by (intros x Hx; apply in_indices in Hx; clear -Hx; unfold index_of in Hx; induction Hx; cbn; congruence).
      induction (indices sh) as [|x l IH]; intros Hn; [constructor|]. inversion Hn; subst. cbn. constructor; [|apply IH; [intros; apply I; now right|assumption]].
      intros Hx. apply in_map_iff in Hx as (y & E & Hy). unfold index_label in E. apply app_inv_head in E. injection E as E. apply app_inj_tail in E as (E & _). apply comma_join_inj in E; [subst; contradiction|].
      rewrite (I x), (I y); [reflexivity|right; exact Hy|left; reflexivity].
    + intros _ ix H. rewrite (nth_indep _ [] (index_label name [])) by (rewrite map_length, indices_length; now apply flat_position_lt). rewrite map_nth. now rewrite nth_indices.
Qed.
Print Assumptions C81_labels.
Example C81_labels_ex : map (fun l => string_of_list_ascii l) (ravel_params_names (s2l "a") [2; 3]%nat) = ["a[0,0]"; "a[0,1]"; "a[0,2]"; "a[1,0]"; "a[1,1]"; "a[1,2]"]%string /\ index_of [2; 3]%nat [1; 2]%nat /\ flat_position [2; 3]%nat [1; 2]%nat = 5%nat.
Proof. split; [reflexivity|]. split; [repeat constructor|reflexivity]. Qed.

(** ** labels of the unit cube handed to ultranest *)
(** sites in the order of their names (not only up to equality) *)
Definition in_order (params : list (str * list nat)) : Prop := Sorted (fun a b => str_leb (fst a) (fst b) = true) params.
Lemma str_leb_total a b : str_leb a b = false -> str_leb b a = true.
Proof.
  revert b. induction a as [|x a IH]; intros [|y b]; cbn; try discriminate; [reflexivity|]. destruct (N.ltb_spec (N_of_ascii x) (N_of_ascii y)) as [H1|H1]; [discriminate|].
  destruct (N.ltb_spec (N_of_ascii y) (N_of_ascii x)) as [H2|H2]; [reflexivity|]. apply IH.
Qed.
Lemma u_order a b : str_leb (u_name a) (u_name b) = str_leb a b. Proof. reflexivity. Qed.
Lemma insert_sorted {V} (x : str * V) l : Sorted (fun a b => str_leb (fst a) (fst b) = true) l -> Sorted (fun a b => str_leb (fst a) (fst b) = true) (insert_str x l).
Proof.
  induction 1 as [|y l Hl IH Hd]; [repeat constructor|]. cbn. destruct (str_leb (fst x) (fst y)) eqn:E; [repeat constructor; assumption|].
  constructor; [exact IH|]. destruct l as [|z l]; cbn; [constructor; now apply str_leb_total|]. destruct (str_leb (fst x) (fst z)); constructor; [now apply str_leb_total|now inversion Hd].
Qed.
Lemma sorted_sorted {V} (l : list (str * V)) : Sorted (fun a b => str_leb (fst a) (fst b) = true) (sorted_items l).
Proof. induction l as [|x l IH]; [constructor|]. cbn. now apply insert_sorted. Qed.
Lemma sorted_id {V} (l : list (str * V)) : Sorted (fun a b => str_leb (fst a) (fst b) = true) l -> sorted_items l = l.
Proof. induction 1 as [|x l Hl IH Hd]; [reflexivity|]. change (insert_str x (sorted_items l) = x :: l). rewrite IH. inversion Hd as [|y r E]; subst; [reflexivity|]. cbn. now rewrite E. Qed.
Lemma insert_perm {V} (x : str * V) l : Permutation (insert_str x l) (x :: l).
Proof. induction l as [|y l IH]; [reflexivity|]. cbn. destruct (str_leb _ _); [reflexivity|]. rewrite IH. apply perm_swap. Qed.
Lemma sorted_perm {V} (l : list (str * V)) : Permutation (sorted_items l) l.
Proof. induction l as [|x l IH]; [reflexivity|]. change (Permutation (insert_str x (sorted_items l)) (x :: l)). rewrite insert_perm. now rewrite IH. Qed.
(** every column of the cube has a label, but only models whose scalar sites come in alphabetical order have every column under its
    own label; in any other order ultranest's report and plots of the cube show columns under the names of other parameters *)
Theorem C81_cube_labels : forall params,
  Permutation (ultranest_labels params) (cube_columns params) /\ (in_order params -> ultranest_labels params = cube_columns params).
Proof.
  intros params. unfold ultranest_labels, cube_columns. split.
  - transitivity (flat_map (fun e : str * list nat => ravel_params_names (fst e) (snd e)) (map (fun e => (u_name (fst e), snd e)) params)).
    + induction params as [|e l IH]; [reflexivity|]. cbn. now apply Permutation_app_head.
    + apply Permutation_flat_map. symmetry. apply sorted_perm.
  - intros H. rewrite sorted_id.
    + clear H. induction params as [|e l IH]; [reflexivity|]. cbn [flat_map map fst snd]. now rewrite IH.
    + induction H as [|e l Hl IH Hd]; [constructor|]. cbn. constructor; [exact IH|]. inversion Hd; subst; constructor. exact H.
Qed.
Print Assumptions C81_cube_labels.
Theorem C81_cube_labels_refuted : forall names, let params := map (fun n => (n, [])) names in
  ultranest_labels params = cube_columns params -> in_order params.
Proof.
  intros names params H. unfold ultranest_labels, cube_columns in H. unfold in_order.
  assert (E : forall l : list (str * list nat), (forall e, In e l -> snd e = []) -> flat_map (fun e => ravel_params_names (fst e) (snd e)) l = map fst l).
  { induction l as [|e l IH]; intros Hl; [reflexivity|]. cbn. rewrite (Hl e (or_introl eq_refl)). cbn. f_equal. apply IH. intros; apply Hl; now right. }
  assert (A : flat_map (fun e : str * list nat => ravel_params_names (u_name (fst e)) (snd e)) params = map u_name names).
  { unfold params. clear. induction names as [|n l IH]; [reflexivity|]. cbn [map flat_map fst snd ravel_params_names]. rewrite IH. reflexivity. }
  rewrite A, E in H.
  2:{ intros e He. apply (Permutation_in _ (sorted_perm _)) in He. unfold params in He. rewrite map_map in He. apply in_map_iff in He as (n & <- & _). reflexivity. }
  assert (S : Sorted (fun a b => str_leb a b = true) (map u_name names)).
  { rewrite H. pose proof (sorted_sorted (map (fun e : str * list nat => (u_name (fst e), snd e)) params)) as Q. clear - Q. induction Q as [|x l Hl IH Hd]; [constructor|]. cbn [map]. constructor; [exact IH|]. inversion Hd as [|y r Hy]; subst; constructor. exact Hy. }
  unfold params. clear - S. induction names as [|n l IH]; [constructor|]. cbn in *. inversion S as [|x y Hs Hd]; subst. constructor; [now apply IH|]. destruct l; [constructor|]. cbn in *. constructor. inversion Hd as [|y r Hy]; subst. exact Hy.
Qed.
Print Assumptions C81_cube_labels_refuted.
(** the two parameters of a power law with a cutoff, in the order of the model *)
Example C81_cube_ex : let params := [(s2l "PowerLaw.K", []); (s2l "ExpCut.Ec", [])] in
  map string_of_list_ascii (ultranest_labels params) = ["u_PowerLaw.K"; "u_ExpCut.Ec"]%string /\ map string_of_list_ascii (cube_columns params) = ["u_ExpCut.Ec"; "u_PowerLaw.K"]%string.
Proof. split; reflexivity. Qed.

(** ** the transforms reproduce the priors *)
Open Scope R_scope.
(** the points of the unit interval with property P form, up to an end point, a segment of length p at one of its ends:
    for q uniform on the unit interval, P holds with probability p *)
Definition happens (P : R -> Prop) (p : R) : Prop := 0 <= p <= 1 /\
  ((forall q, 0 < q < 1 -> (P q -> q <= p) /\ (q < p -> P q)) \/ (forall q, 0 < q < 1 -> (P q -> 1 - p <= q) /\ (1 - p < q -> P q))).
(** [law d x p]: a variable with distribution d is at most x with probability p.  [continuous]: it has no atoms *)
Fixpoint continuous (d : distr) : Prop :=
  match d with Univariate icdf cdf => forall q x, 0 < q < 1 -> (icdf q < x <-> q < cdf x) | Transformed d _ => continuous d | Wrapped d => continuous d | _ => False end.
(** cdf and inverse cdf belong together; transforms are given together with nothing, see [law] *)
Fixpoint valid (d : distr) : Prop :=
  match d with
  | Univariate icdf cdf => (forall x, 0 <= cdf x <= 1) /\ (forall q x, 0 < q < 1 -> (icdf q <= x <-> q <= cdf x))
  | Transformed d _ => valid d | Wrapped d => valid d
  | Bernoulli p => 0 <= p <= 1
  | Categorical ps => Forall (fun p => 0 <= p) ps /\ fold_right Rplus 0 ps = 1
  end.
Definition increasing_on (D : R -> Prop) (t : R -> R) : Prop := forall a b, D a -> D b -> a < b -> t a < t b.
Definition decreasing_on (D : R -> Prop) (t : R -> R) : Prop := forall a b, D a -> D b -> a < b -> t b < t a.
Inductive law : distr -> R -> R -> Prop :=
| law_univariate icdf cdf x : law (Univariate icdf cdf) x (cdf x)
| law_wrapped d x p : law d x p -> law (Wrapped d) x p
| law_bernoulli_0 p : law (Bernoulli p) 0 (1 - p)
| law_bernoulli_1 p : law (Bernoulli p) 1 1
| law_categorical ps k : (k < length ps)%nat -> law (Categorical ps) (INR k) (fold_right Rplus 0 (firstn (S k) ps))
| law_none d x p : law d x p -> law (Transformed d []) x p
| law_increasing d ts t x p (D : R -> Prop) : law (Transformed d ts) x p -> D x -> (forall q, 0 < q < 1 -> D (reparam (Transformed d ts) q)) ->
    increasing_on D t -> law (Transformed d (ts ++ [t])) (t x) p
| law_decreasing d ts t x p (D : R -> Prop) : law (Transformed d ts) x p -> continuous d -> D x -> (forall q, 0 < q < 1 -> D (reparam (Transformed d ts) q)) ->
    decreasing_on D t -> law (Transformed d (ts ++ [t])) (t x) (1 - p).

Lemma happens_ext P Q p : (forall q, 0 < q < 1 -> (P q <-> Q q)) -> happens P p -> happens Q p.
Proof.
  intros E (B & [H|H]); (split; [exact B|]); [left|right]; intros q Hq; destruct (H q Hq) as (H1 & H2), (E q Hq) as (E1 & E2); split; auto.
Qed.
Lemma happens_not P p : (forall q, P q \/ ~ P q) -> happens P p -> happens (fun q => ~ P q) (1 - p).
Proof.
  intros Dec (B & [H|H]); (split; [lra|]); [right|left]; intros q Hq; destruct (H q Hq) as (H1 & H2); split.
  - intros N. destruct (Rlt_le_dec q p) as [L|L]; [contradiction (N (H2 L))|lra].
  - intros L HP. apply H1 in HP. lra.
  - intros N. destruct (Rlt_le_dec (1 - p) q) as [L|L]; [contradiction (N (H2 L))|lra].
  - intros L HP. apply H1 in HP. lra.
Qed.
Lemma reparam_snoc d ts t q : reparam (Transformed d (ts ++ [t])) q = t (reparam (Transformed d ts) q).
Proof. cbn [reparam]. now rewrite fold_left_app. Qed.
(** the cumulative sums of probabilities below q: those before position k *)
Lemma cumsum_nth l : forall a k, (k < length l)%nat -> nth k (cumsum_from a l) 0 = a + fold_right Rplus 0 (firstn (S k) l).
Proof.
  induction l as [|x l IH]; intros a k Hk; [cbn in Hk; lia|]. destruct k as [|k]; [cbn; ring|]. cbn [cumsum_from nth]. rewrite IH by (cbn in Hk; lia). cbn [firstn fold_right]. ring.
Qed.
Lemma cumsum_filter l : Forall (fun p => 0 <= p) l -> forall a q k, (k < length l)%nat ->
  ((length (filter (fun c => Rltb c q) (cumsum_from a l)) <= k)%nat <-> q <= a + fold_right Rplus 0 (firstn (S k) l)).
Proof.
  induction 1 as [|x l Hx Hl IH]; intros a q k Hk; [cbn in Hk; lia|]. cbn [cumsum_from filter].
  assert (Z0 : forall b m, b <= m -> forall l', Forall (fun p => 0 <= p) l' -> q <= b -> filter (fun c => Rltb c q) (cumsum_from m l') = []).
  { intros b m Hbm l'. revert m Hbm. induction l' as [|y l' IHl]; intros m Hbm F Hq; [reflexivity|]. inversion F; subst. cbn. destruct (Rltb_spec (m + y) q); [lra|]. apply IHl; [lra|assumption|assumption]. }
  assert (Pos : forall m, 0 <= fold_right Rplus 0 (firstn m l)).
  { clear - Hl. induction l as [|y l IH]; intros [|m]; cbn; try lra. inversion Hl; subst. specialize (IH H2 m). lra. }
  destruct (Rltb_spec (a + x) q) as [L|L].
  - cbn [length]. destruct k as [|k].
    + cbn [firstn fold_right]. split; [lia|lra].
    + cbn [firstn fold_right]. rewrite <- Nat.succ_le_mono, IH by (cbn in Hk; lia). cbn [firstn]. split; intros; lra.
  - rewrite (Z0 (a + x) (a + x)) by (assumption || lra). cbn [length firstn fold_right]. specialize (Pos k). split; [intros _; lra|lia].
Qed.
(** the transforms of the samplers have the law of the prior *)
Theorem C81_prior : forall d x p, valid d -> law d x p -> happens (fun q => reparam d q <= x) p.
Proof.
  assert (G : forall d x p, valid d -> law d x p -> happens (fun q => reparam d q <= x) p /\ (continuous d -> happens (fun q => reparam d q < x) p)).
  { intros d x p V H. induction H as [icdf cdf x|d x p H IH|p|p|ps k Hk|d x p H IH|d ts t x p D H IH Dx Dq Ht|d ts t x p D H IH C Dx Dq Ht].
    - destruct V as (V1 & V2). cbn [reparam continuous]. split; [|intros C]; (split; [apply V1|]); left; intros q Hq; specialize (V2 q x Hq); [|specialize (C q x Hq)]; split; intros; try apply V2; try apply C; try lra.
    - exact (IH V).
    - cbn [reparam valid continuous] in *. split; [|intros []]. split; [lra|]. right. intros q Hq. destruct (Rltb_spec q p); split; intros; lra.
    - cbn [reparam valid continuous] in *. split; [|intros []]. split; [lra|]. left. intros q Hq. destruct (Rltb_spec q p); split; intros; lra.
    - destruct V as (V1 & V2). split; [|intros []]. cbn [reparam].
      assert (B : 0 <= fold_right Rplus 0 (firstn (S k) ps) <= 1).
      { assert (Q : forall l : list R, Forall (fun p => 0 <= p) l -> 0 <= fold_right Rplus 0 l) by (induction 1; cbn; lra).
        rewrite <- V2. rewrite <- (firstn_skipn (S k) ps) in V1 |- * at 3. apply Forall_app in V1 as (F1 & F2).
        assert (S : forall a b : list R, fold_right Rplus 0 (a ++ b) = fold_right Rplus 0 a + fold_right Rplus 0 b) by (induction a; intros; cbn; [lra|rewrite IHa; lra]).
        rewrite S. pose proof (Q _ F1). pose proof (Q _ F2). lra. }
      split; [exact B|]. left. intros q Hq. pose proof (cumsum_filter ps V1 0 q k Hk) as E. rewrite Rplus_0_l in E. split.
      + intros H. apply E. apply INR_le in H. exact H.
      + intros H. apply le_INR. apply E. lra.
    - exact (IH V).
    - destruct (IH V) as (A & B). assert (I : forall a b, D a -> D b -> (t a <= t b <-> a <= b) /\ (t a < t b <-> a < b)).
      { intros a b Da Db. destruct (Rtotal_order a b) as [L|[->|L]]; [specialize (Ht a b Da Db L)|specialize (Ht b b)|specialize (Ht b a Db Da L)]; lra. }
      split; [|intros C; specialize (B C)]; [eapply happens_ext, A|eapply happens_ext, B]; intros q Hq; rewrite reparam_snoc; symmetry; apply I; auto.
    - destruct (IH V) as (A & B). specialize (B C). assert (I : forall a b, D a -> D b -> (t a <= t b <-> ~ a < b) /\ (t a < t b <-> ~ a <= b)).
      { intros a b Da Db. destruct (Rtotal_order a b) as [L|[->|L]]; [specialize (Ht a b Da Db L)|specialize (Ht b b)|specialize (Ht b a Db Da L)]; split; lra. }
      split; [|intros _].
      + apply happens_not in B; [|intros q; destruct (Rlt_dec (reparam (Transformed d ts) q) x); auto]. eapply happens_ext, B. intros q Hq. rewrite reparam_snoc. symmetry. apply I; auto.
      + apply happens_not in A; [|intros q; destruct (Rle_dec (reparam (Transformed d ts) q) x); auto]. eapply happens_ext, A. intros q Hq. rewrite reparam_snoc. symmetry. apply I; auto. }
  intros d x p V H. now apply G.
Qed.
Print Assumptions C81_prior.
(** a categorical variable takes each of its values with its probability, and no other value *)
Theorem C81_categorical : forall ps q k, valid (Categorical ps) -> 0 < q < 1 ->
  (reparam (Categorical ps) q = INR k <-> (k < length ps)%nat /\ fold_right Rplus 0 (firstn k ps) < q <= fold_right Rplus 0 (firstn (S k) ps)).
Proof.
  intros ps q k (V1 & V2) Hq. cbn [reparam]. set (n := length (filter _ _)).
  assert (E : forall j, (j < length ps)%nat -> (n <= j)%nat <-> q <= fold_right Rplus 0 (firstn (S j) ps)).
  { intros j Hj. pose proof (cumsum_filter ps V1 0 q j Hj) as E. rewrite Rplus_0_l in E. exact E. }
  assert (L : (0 < length ps)%nat) by (destruct ps; [cbn in V2; lra|cbn; lia]).
  assert (Nl : (n < length ps)%nat). { pose proof (E (length ps - 1)%nat ltac:(lia)) as F. replace (S (length ps - 1)) with (length ps) in F by lia. rewrite firstn_all, V2 in F. assert (n <= length ps - 1)%nat by (apply F; lra). lia. }
  assert (Key : forall j, (j < length ps)%nat -> (n = j <-> fold_right Rplus 0 (firstn j ps) < q <= fold_right Rplus 0 (firstn (S j) ps))).
  { intros j Hj. pose proof (E j Hj) as Ej. destruct j as [|j].
    - cbn [firstn fold_right] in *. split; [intros Hn; split; [lra|apply Ej; lia]|]. intros (_ & H). apply Ej in H. lia.
    - pose proof (E j ltac:(lia)) as Ej'. split.
      + intros Hn. split; [|apply Ej; lia]. apply Rnot_le_lt. intros H. apply Ej' in H. lia.
      + intros (H1 & H2). apply Ej in H2. assert (~ (n <= j)%nat) by (intros H; apply Ej' in H; lra). lia. }
  split.
  - intros H. apply INR_eq in H. subst k. split; [exact Nl|]. now apply Key.
  - intros (Hk & H). f_equal. now apply Key.
Qed.
Print Assumptions C81_categorical.
(** the log-uniform prior on [1, e^2]: uniform on [0, 2], then exp *)
Example C81_prior_ex : let d := Wrapped (Transformed (Univariate (fun q => 2 * q) (fun x => Rmin 1 (Rmax 0 (x / 2)))) [exp]) in
  valid d /\ law d (exp 1) (1 / 2) /\ happens (fun q => reparam d q <= exp 1) (1 / 2).
Proof.
  intros d.
  assert (V : valid d).
  { cbn. split.
    - intros x. unfold Rmin, Rmax. destruct (Rle_dec 0 (x / 2)); destruct (Rle_dec 1 _); lra.
    - intros q x Hq. unfold Rmin, Rmax. destruct (Rle_dec 0 (x / 2)); destruct (Rle_dec 1 _); split; lra. }
  assert (L : law d (exp 1) (1 / 2)).
  { apply law_wrapped. apply (law_increasing _ [] exp 1 _ (fun _ => True)); [|exact I|auto|intros a b _ _; apply exp_increasing].
    apply law_none. pose proof (law_univariate (fun q => 2 * q) (fun x => Rmin 1 (Rmax 0 (x / 2))) 1) as U. cbv beta in U.
    assert (Q : Rmin 1 (Rmax 0 (1 / 2)) = 1 / 2) by (unfold Rmin, Rmax; destruct (Rle_dec 0 (1 / 2)); destruct (Rle_dec 1 _); lra). rewrite Q in U. exact U. }
  split; [exact V|]. split; [exact L|]. now apply C81_prior.
Qed.
