(** Linear algebra for the errors of a fit: Cholesky factorisation succeeds exactly on positive definite matrices, and more vectors than
    dimensions are dependent. *)
From Verif Require Import RBase Base Data DataProofs DataState Namespace HelperData Summary SummaryProofs Prop_Batch FitErrors FitErrorsSpec.
From Coq Require Import List Lia Psatz.
Open Scope list_scope.
Open Scope R_scope.

Lemma total_S k f : total (S k) f = f O + total k (fun i => f (S i)).
Proof. unfold total. cbn [seq map]. rewrite <- seq_shift, map_map. reflexivity. Qed.
Lemma total_ext k f g : (forall i, (i < k)%nat -> f i = g i) -> total k f = total k g.
Proof. intros H. unfold total. f_equal. apply map_ext_in. intros i Hi. apply in_seq in Hi. apply H. lia. Qed.
Lemma total_plus k f g : total k (fun i => f i + g i) = total k f + total k g.
Proof. apply rsum_plus. Qed.
Lemma total_mult k c f : total k (fun i => c * f i) = c * total k f.
Proof. apply rsum_mult. Qed.
Lemma total_zero k f : (forall i, (i < k)%nat -> f i = 0) -> total k f = 0.
Proof. intros H. apply rsum_zeros. intros i Hi. apply in_seq in Hi. apply H. lia. Qed.
Lemma total_swap k l (f : nat -> nat -> R) : total k (fun i => total l (f i)) = total l (fun j => total k (fun i => f i j)).
Proof. apply (rsum_swap f). Qed.
Lemma form_ext k M N u v u' v' : (forall i j, (i < k)%nat -> (j < k)%nat -> M i j = N i j) -> (forall i, (i < k)%nat -> u i = u' i) -> (forall i, (i < k)%nat -> v i = v' i) ->
  form k M u v = form k N u' v'.
Proof. intros HM Hu Hv. apply total_ext. intros i Hi. apply total_ext. intros j Hj. now rewrite HM, Hu, Hv. Qed.
Lemma form_S k M x : form (S k) M x x =
  M O O * x O * x O + x O * total k (fun j => M O (S j) * x (S j)) + x O * total k (fun i => M (S i) O * x (S i)) + form k (fun i j => M (S i) (S j)) (fun i => x (S i)) (fun i => x (S i)).
Proof.
  unfold form. rewrite total_S, total_S.
  rewrite (total_ext k (fun i => total (S k) (fun j => x (S i) * M (S i) j * x j)) (fun i => x O * (M (S i) O * x (S i)) + total k (fun j => x (S i) * M (S i) (S j) * x (S j)))).
  2:{ intros i _. rewrite total_S. ring. }
  rewrite total_plus, total_mult. rewrite (total_ext k (fun i => x O * M O (S i) * x (S i)) (fun i => x O * (M O (S i) * x (S i)))) by (intros; ring). rewrite total_mult. ring.
Qed.
(** the Schur complement *)
Definition schur (M : nat -> nat -> R) (i j : nat) : R := M (S i) (S j) - M (S i) O * M (S j) O / M O O.
Lemma form_schur k M x : form k (schur M) x x = form k (fun i j => M (S i) (S j)) x x - total k (fun i => M (S i) O * x i) * total k (fun i => M (S i) O * x i) / M O O.
Proof.
  unfold form, schur.
  rewrite (total_ext k _ (fun i => total k (fun j => x i * M (S i) (S j) * x j) + (- (total k (fun j => M (S j) O * x j)) / M O O) * (M (S i) O * x i))).
  - rewrite total_plus, total_mult. unfold Rdiv. ring.
  - intros i _. rewrite (total_ext k _ (fun j => x i * M (S i) (S j) * x j + (- (M (S i) O * x i) / M O O) * (M (S j) O * x j))) by (intros; unfold Rdiv; ring).
    rewrite total_plus, total_mult. unfold Rdiv. ring.
Qed.
Lemma pd_step k M : symmetric (S k) M -> (positive_definite (S k) M <-> 0 < M O O /\ positive_definite k (schur M)).
Proof.
  intros Sy. assert (C : forall x, total k (fun j => M O (S j) * x (S j)) = total k (fun i => M (S i) O * x (S i))).
  { intros x. apply total_ext. intros i Hi. rewrite (Sy O (S i)) by lia. reflexivity. }
  split.
  - intros P. assert (A : 0 < M O O).
    { assert (H : 0 < form (S k) M (fun i => match i with O => 1 | _ => 0 end) (fun i => match i with O => 1 | _ => 0 end)) by (apply P; exists O; split; [lia|exact R1_neq_R0]). rewrite form_S in H. cbn in H.
      rewrite (total_zero k (fun j => M O (S j) * 0)), (total_zero k (fun j => M (S j) O * 0)) in H by (intros; ring).
      assert (Z : form k (fun i j => M (S i) (S j)) (fun _ => 0) (fun _ => 0) = 0) by (apply total_zero; intros; apply total_zero; intros; ring). rewrite Z in H. lra. }
    split; [exact A|]. intros x [i [Hi Hx]]. set (s := total k (fun i => M (S i) O * x i)).
    assert (H : 0 < form (S k) M (fun i => match i with O => - s / M O O | S j => x j end) (fun i => match i with O => - s / M O O | S j => x j end)) by (apply P; exists (S i); split; [lia|exact Hx]). rewrite form_S in H. pose proof (C (fun i => match i with O => - s / M O O | S j => x j end)) as Cx. cbn beta iota in H, Cx.
    rewrite Cx in H. fold s in H. rewrite form_schur. fold s.
    change (form k (fun a b => M (S a) (S b)) (fun a => x a) (fun a => x a)) with (form k (fun i j => M (S i) (S j)) x x) in H.
    replace (M O O * (- s / M O O) * (- s / M O O) + - s / M O O * s + - s / M O O * s + form k (fun i0 j => M (S i0) (S j)) x x) with (form k (fun i0 j => M (S i0) (S j)) x x - s * s / M O O) in H by (field; lra).
    exact H.
  - intros [A P] x [i [Hi Hx]]. rewrite form_S, C. set (y := fun i => x (S i)). set (s := total k (fun i => M (S i) O * x (S i))).
    assert (F : form k (fun i j => M (S i) (S j)) y y = form k (schur M) y y + s * s / M O O) by (rewrite form_schur; unfold y; fold s; lra).
    rewrite F. replace (M O O * x O * x O + x O * s + x O * s + (form k (schur M) y y + s * s / M O O)) with (M O O * ((x O + s / M O O) * (x O + s / M O O)) + form k (schur M) y y) by (field; lra).
    assert (Sq : 0 <= M O O * ((x O + s / M O O) * (x O + s / M O O))) by (apply Rmult_le_pos; [apply Rlt_le; exact A|apply (Rle_0_sqr (x O + s / M O O))]).
    destruct (List.Exists_dec (fun j => y j <> 0) (seq 0 k) (fun j => match Req_EM_T (y j) 0 with left e => right (fun h => h e) | right n => left n end)) as [E|E].
    + apply Exists_exists in E as (j & Hj & Nj). apply in_seq in Hj. assert (0 < form k (schur M) y y) by (apply P; exists j; split; [lia|exact Nj]). lra.
    + assert (Z : forall j, (j < k)%nat -> y j = 0).
      { intros j Hj. destruct (Req_EM_T (y j) 0) as [e|n]; [exact e|]. exfalso. apply E. apply Exists_exists. exists j. split; [apply in_seq; lia|exact n]. }
      assert (s = 0) as -> by (apply total_zero; intros j Hj; change (x (S j)) with (y j); rewrite Z by exact Hj; ring).
      assert (form k (schur M) y y = 0) as -> by (apply total_zero; intros a Ha; apply total_zero; intros b Hb; rewrite Z by exact Ha; ring).
      assert (N : x O <> 0) by (destruct i as [|i]; [exact Hx|exfalso; apply Hx, (Z i); lia]).
      replace (x O + 0 / M O O) with (x O) by (field; lra). assert (0 < x O * x O) by nra. assert (0 < M O O * (x O * x O)) by (now apply Rmult_lt_0_compat). lra.
Qed.
Lemma positive_definite_ext k M N : (forall i j, (i < k)%nat -> (j < k)%nat -> M i j = N i j) -> positive_definite k M -> positive_definite k N.
Proof. intros E P x H. rewrite (form_ext k N M x x x x); [now apply P|intros; symmetry; now apply E|reflexivity|reflexivity]. Qed.

Lemma nth_zip2 {A B C} (f : A -> B -> C) a b i d da db : (i < length a)%nat -> (i < length b)%nat -> nth i (zip2 f a b) d = f (nth i a da) (nth i b db).
Proof. revert b i. induction a as [|x a IH]; intros [|y b] [|i] Ha Hb; cbn in *; try lia; [reflexivity|apply IH; lia]. Qed.
(** Cholesky factorisation succeeds exactly on positive definite matrices *)
Lemma cholesky_spec k m : rows k k m -> symmetric k (entry m) -> (cholesky_ok k m = true <-> positive_definite k (entry m)).
Proof.
  revert m. induction k as [|k IH]; intros m [Lm Fm] Sy.
  - cbn. split; [|reflexivity]. intros _ x (i & Hi & _). lia.
  - destruct m as [|[|a v] rws]; [discriminate| |].
    { inversion Fm as [|? ? E _]; discriminate. }
    inversion Fm as [|? ? E Fr]; subst. cbn in Lm. injection Lm as Lr.
    rewrite (pd_step k (entry ((a :: v) :: rws)) Sy). change (entry ((a :: v) :: rws) O O) with a. cbn [cholesky_ok].
    set (c := map (hd 0) rws). set (m' := map (fun r => zip2 (fun x cj => x - hd 0 r * cj / a) (tl r) c) rws).
    assert (Lc : length c = k) by (unfold c; now rewrite map_length).
    assert (Lm' : length m' = k) by (unfold m'; now rewrite map_length).
    assert (Row : forall i, (i < k)%nat -> length (nth i rws []) = S k).
    { intros i Hi. rewrite Forall_forall in Fr. apply Fr, nth_In. lia. }
    assert (En : forall i j, (i < k)%nat -> (j < k)%nat -> entry m' i j = schur (entry ((a :: v) :: rws)) i j).
    { intros i j Hi Hj. unfold entry at 1, m'. rewrite (nth_indep _ [] (zip2 (fun x cj => x - hd 0 [] * cj / a) (tl []) c)) by (rewrite map_length; lia).
      rewrite (map_nth (fun r => zip2 (fun x cj => x - hd 0 r * cj / a) (tl r) c)). pose proof (Row i Hi) as Li. destruct (nth i rws []) as [|ri0 ri] eqn:Er; [discriminate|]. cbn in Li.
      cbn [tl hd]. rewrite (nth_zip2 _ ri c j 0 0 0) by lia. unfold schur, entry. cbn [nth]. rewrite Er. cbn [nth]. f_equal.
      assert (nth j c 0 = nth O (nth j rws []) 0) as ->; [|reflexivity].
      unfold c. rewrite (nth_indep _ 0 (hd 0 [])) by (rewrite map_length; lia). rewrite (map_nth (hd 0)). destruct (nth j rws []); reflexivity. }
    assert (Sq : rows k k m').
    { split; [exact Lm'|]. unfold m'. apply Forall_forall. intros r Hr. apply in_map_iff in Hr as (r0 & <- & H0). rewrite Forall_forall in Fr. pose proof (Fr _ H0) as L0.
      destruct r0 as [|x r0]; [discriminate|]. cbn in L0. rewrite zip2_length. cbn. lia. }
    assert (Sy' : symmetric k (entry m')).
    { intros i j Hi Hj. rewrite !En by assumption. unfold schur. rewrite (Sy (S i) (S j)) by lia. unfold Rdiv. ring. }
    destruct (Rltb_spec 0 a) as [Ha|Ha].
    + rewrite (IH m' Sq Sy'). split; intros H.
      * split; [exact Ha|]. eapply positive_definite_ext; [|exact H]. exact En.
      * destruct H as [_ H]. eapply positive_definite_ext; [|exact H]. intros; symmetry; now apply En.
    + split; [discriminate|]. intros [H _]. contradiction.
Qed.

(** ** dependent vectors *)
Lemma total_app k l f : total (k + l) f = total k f + total l (fun i => f (k + i)%nat).
Proof. revert f. induction k as [|k IH]; intros f; [symmetry; apply Rplus_0_l|]. cbn [plus]. rewrite !total_S, IH. symmetry; apply Rplus_assoc. Qed.
(** more rows than columns: a combination of the rows that is not trivial vanishes *)
Lemma dependent n : forall k (J : nat -> nat -> R), (n < k)%nat ->
  exists y : nat -> R, (exists i, (i < k)%nat /\ y i <> 0) /\ forall a, (a < n)%nat -> total k (fun i => y i * J i a) = 0.
Proof.
  induction n as [|n IH]; intros k J Hk.
  - exists (fun _ => 1). split; [exists O; split; [lia|lra]|]. intros; lia.
  - destruct (List.Exists_dec (fun j => J j O <> 0) (seq 0 k) (fun j => match Req_EM_T (J j O) 0 with left e => right (fun h => h e) | right n => left n end)) as [E|E].
    + apply Exists_exists in E as (p & Hp & Np). apply in_seq in Hp. 
      (* the rows other than p *)
      set (sk := fun i => if (i <? p)%nat then i else S i).
      destruct (IH (k - 1)%nat (fun i a => J (sk i) (S a) - J (sk i) O / J p O * J p (S a)) ltac:(lia)) as (y & (i0 & Hi0 & Ny) & Hy).
      set (yp := - total (k - 1) (fun i => y i * J (sk i) O) / J p O).
      set (z := fun i => if (i <? p)%nat then y i else if (i =? p)%nat then yp else y (i - 1)%nat).
      assert (Zs : forall i, z (sk i) = y i).
      { intros i. unfold z, sk. destruct (Nat.ltb_spec i p) as [L|L].
        - destruct (Nat.ltb_spec i p); [reflexivity|lia].
        - destruct (Nat.ltb_spec (S i) p); [lia|]. destruct (Nat.eqb_spec (S i) p); [lia|]. f_equal. lia. }
      assert (Split : forall f : nat -> R, total k f = f p + total (k - 1) (fun i => f (sk i))).
      { intros f. replace k with (p + S (k - 1 - p))%nat at 1 by lia. rewrite total_app, total_S. replace (k - 1)%nat with (p + (k - 1 - p))%nat at 2 by lia. rewrite total_app.
        rewrite (total_ext p (fun i => f (sk i)) f). 2:{ intros i Hi. unfold sk. destruct (Nat.ltb_spec i p); [reflexivity|lia]. }
        rewrite (total_ext (k - 1 - p) (fun i => f (sk (p + i)%nat)) (fun i => f (p + S i)%nat)). 2:{ intros i _. unfold sk. destruct (Nat.ltb_spec (p + i) p); [lia|]. f_equal. lia. }
        rewrite Nat.add_0_r. lra. }
      assert (Zp : z p = yp). { unfold z. destruct (Nat.ltb_spec p p); [lia|]. now rewrite Nat.eqb_refl. }
      exists z. split.
      * exists (sk i0). split; [unfold sk; destruct (Nat.ltb_spec i0 p); lia|]. now rewrite Zs.
      * intros a Ha. rewrite Split, Zp. rewrite (total_ext (k - 1) (fun i => z (sk i) * J (sk i) a) (fun i => y i * J (sk i) a)) by (intros; now rewrite Zs).
        destruct a as [|a].
        -- unfold yp. field. exact Np.
        -- specialize (Hy a ltac:(lia)).
           rewrite (total_ext (k - 1) (fun i => y i * (J (sk i) (S a) - J (sk i) O / J p O * J p (S a))) (fun i => y i * J (sk i) (S a) + (- J p (S a) / J p O) * (y i * J (sk i) O))) in Hy by (intros; unfold Rdiv; ring).
           rewrite total_plus, total_mult in Hy. unfold yp. unfold Rdiv in *. lra.
    + destruct (IH k (fun i a => J i (S a)) ltac:(lia)) as (y & Ny & Hy). exists y. split; [exact Ny|]. intros [|a] Ha; [|apply Hy; lia].
      apply total_zero. intros i Hi. destruct (Req_EM_T (J i O) 0) as [e|ne]; [rewrite e; ring|]. exfalso. apply E. apply Exists_exists. exists i. split; [apply in_seq; lia|exact ne].
Qed.

(** ** the covariance of the parameters *)
Lemma entry_map_seq k w (f : nat -> nat -> R) i j : (i < k)%nat -> (j < w)%nat -> entry (map (fun a => map (f a) (seq 0 w)) (seq 0 k)) i j = f i j.
Proof. intros Hi Hj. unfold entry. rewrite nth_seq_map by exact Hi. now rewrite nth_seq_map. Qed.
Lemma row_length k n m i : rows k n m -> (i < k)%nat -> length (nth i m []) = n.
Proof. intros [L F] H. rewrite Forall_forall in F. apply F, nth_In. lia. Qed.
Lemma nth_col m j b : nth b (col m j) 0 = entry m b j.
Proof. unfold col, entry. destruct (Nat.lt_ge_cases b (length m)) as [H|H].
  - rewrite (nth_indep _ 0 (nth j [] 0)) by (now rewrite map_length). now rewrite (map_nth (fun r => nth j r 0)).
  - rewrite nth_overflow by (now rewrite map_length). rewrite (nth_overflow m) by exact H. now destruct j. Qed.
Lemma matmul_rows a b k n w : rows k n a -> rows k w (matmul a b w).
Proof. intros [L F]. unfold matmul. split; [now rewrite map_length|]. apply Forall_forall. intros r Hr. apply in_map_iff in Hr as (r0 & <- & _). now rewrite map_length, seq_length. Qed.
Lemma matmul_entry a b k n w i j : rows k n a -> length b = n -> (i < k)%nat -> (j < w)%nat -> entry (matmul a b w) i j = total n (fun l => entry a i l * entry b l j).
Proof.
  intros Ra Lb Hi Hj. unfold entry at 1, matmul. destruct Ra as [La Fa]. rewrite (nth_indep _ [] (map (fun j => dot [] (col b j)) (seq 0 w))) by (rewrite map_length; lia).
  rewrite (map_nth (fun r => map (fun j => dot r (col b j)) (seq 0 w))). rewrite nth_seq_map by exact Hj. rewrite (dot_sum _ _ n).
  - apply total_ext. intros l Hl. now rewrite nth_col.
  - apply (row_length k n a i); [split|]; assumption.
  - unfold col. now rewrite map_length.
Qed.
Lemma transpose_entry m w j i : (j < w)%nat -> entry (transpose m w) j i = entry m i j.
Proof. intros Hj. unfold entry at 1, transpose. rewrite nth_seq_map by exact Hj. apply nth_col. Qed.
Lemma params_covar_rows n k jac cov : rows k n jac -> rows k k (params_covar n jac cov).
Proof.
  intros R. unfold params_covar. destruct R as [L F]. rewrite L. pose proof (matmul_rows jac cov k n n (conj L F)) as R1. exact (matmul_rows _ (transpose jac n) k n k R1).
Qed.
Lemma params_covar_entry n k jac cov i j : rows k n jac -> length cov = n -> (i < k)%nat -> (j < k)%nat ->
  entry (params_covar n jac cov) i j = form n (entry cov) (entry jac i) (entry jac j).
Proof.
  intros R L Hi Hj. pose proof (proj1 R) as Lj. unfold params_covar. rewrite Lj. rewrite (matmul_entry _ _ k n k); [|apply (matmul_rows _ _ _ n), R|unfold transpose; now rewrite map_length, seq_length|assumption|assumption].
  unfold form. rewrite (total_swap n n (fun i0 j0 => entry jac i i0 * entry cov i0 j0 * entry jac j j0)). apply total_ext. intros a Ha. rewrite (matmul_entry _ _ k n n) by assumption. rewrite transpose_entry by exact Ha.
  rewrite Rmult_comm, <- total_mult. apply total_ext. intros b Hb. ring.
Qed.
(** the variance of a combination of the parameters *)
Lemma form_params n k jac cov x : rows k n jac -> length cov = n ->
  form k (entry (params_covar n jac cov)) x x = form n (entry cov) (fun a => total k (fun i => x i * entry jac i a)) (fun a => total k (fun i => x i * entry jac i a)).
Proof.
  intros R L. set (y := fun a => total k (fun i => x i * entry jac i a)).
  transitivity (total k (fun i => total k (fun j => x i * form n (entry cov) (entry jac i) (entry jac j) * x j))).
  { apply total_ext. intros i Hi. apply total_ext. intros j Hj. now rewrite (params_covar_entry n k). }
  transitivity (total k (fun i => x i * form n (entry cov) (entry jac i) y)).
  { apply total_ext. intros i _. unfold form.
    rewrite (total_ext k _ (fun j => x i * total n (fun a => total n (fun b => entry jac i a * entry cov a b * (x j * entry jac j b))))).
    2:{ intros j _. rewrite Rmult_assoc. f_equal. rewrite Rmult_comm, <- total_mult. apply total_ext. intros a _. rewrite <- total_mult. apply total_ext. intros b _. ring. }
    rewrite total_mult. f_equal. rewrite (total_swap k n (fun j a => total n (fun b => entry jac i a * entry cov a b * (x j * entry jac j b)))). apply total_ext. intros a _.
    rewrite (total_swap k n (fun j b => entry jac i a * entry cov a b * (x j * entry jac j b))). apply total_ext. intros b _. unfold y. now rewrite total_mult. }
  unfold form. rewrite (total_ext k _ (fun i => total n (fun a => total n (fun b => x i * entry jac i a * entry cov a b * y b)))).
  2:{ intros i _. rewrite <- total_mult. apply total_ext. intros a _. rewrite <- total_mult. apply total_ext. intros b _. ring. }
  rewrite (total_swap k n (fun i a => total n (fun b => x i * entry jac i a * entry cov a b * y b))). apply total_ext. intros a _.
  rewrite (total_swap k n (fun i b => x i * entry jac i a * entry cov a b * y b)). apply total_ext. intros b _.
  rewrite (total_ext k _ (fun i => (entry cov a b * y b) * (x i * entry jac i a))) by (intros; ring). rewrite total_mult. unfold y at 2. ring.
Qed.
Lemma form_sym k M u v : symmetric k M -> form k M u v = form k M v u.
Proof. intros S. unfold form. rewrite (total_swap k k (fun i j => u i * M i j * v j)). apply total_ext. intros i Hi. apply total_ext. intros j Hj. rewrite (S j i) by assumption. ring. Qed.
Lemma allclose_sym k m : symmetric k (entry m) -> allclose_T k m = true.
Proof.
  intros S. unfold allclose_T. apply forallb_forall. intros i Hi. apply forallb_forall. intros j Hj. apply in_seq in Hi, Hj.
  change (nth j (nth i m []) 0) with (entry m i j). change (nth i (nth j m []) 0) with (entry m j i). rewrite (S i j) by lia. unfold closeb. apply Rleb_true.
  rewrite Rminus_diag_eq by reflexivity. rewrite Rabs_R0. pose proof (Rabs_pos (entry m j i)). lra.
Qed.
