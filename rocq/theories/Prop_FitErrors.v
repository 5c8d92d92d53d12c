(** C105: the errors of a fit. *)
From Coq Require Import Ascii String.
From Verif Require Import RBase Base Data Namespace NamespaceProofs CompileProofs HelperData HelperDataProofs Prop_Batch Summary FitErrors FitErrorsSpec FitErrorsProofs Prop_PostSummary.
From Coq Require Import List Lia Psatz.
Open Scope list_scope.
Open Scope R_scope.

(** ** inverse of the Hessian *)
Lemma total_delta n j (f : nat -> R) : (j < n)%nat -> total n (fun l => (if (l =? j)%nat then 1 else 0) * f l) = f j.
Proof.
  revert j f. induction n as [|n IH]; intros j f Hj; [lia|]. rewrite total_S. destruct j as [|j].
  - cbn [Nat.eqb]. rewrite total_zero by (intros; cbn [Nat.eqb]; ring). ring.
  - cbn [Nat.eqb]. rewrite (IH j (fun l => f (S l))) by lia. ring.
Qed.
Lemma inverse_sym n H V : symmetric n H -> product_is 1 n H V -> symmetric n V.
Proof.
  intros S P i j Hi Hj. transitivity (total n (fun l => total n (fun m => H l m * V m i) * V l j)).
  - rewrite (total_ext n _ (fun l => (if (l =? i)%nat then 1 else 0) * V l j)); [now rewrite total_delta|]. intros l Hl. now rewrite P.
  - transitivity (total n (fun m => (if (m =? j)%nat then 1 else 0) * V m i)); [|now rewrite total_delta].
    rewrite (total_ext n (fun l => total n (fun m => H l m * V m i) * V l j) (fun l => total n (fun m => H m l * V l j * V m i))).
    2:{ intros l Hl. rewrite Rmult_comm, <- total_mult. apply total_ext. intros m Hm. rewrite (S l m) by assumption. ring. }
    rewrite (total_swap n n (fun l m => H m l * V l j * V m i)). apply total_ext. intros m Hm. rewrite <- (P m j Hm Hj). rewrite Rmult_comm, <- total_mult. apply total_ext. intros; ring.
Qed.
Lemma inverse_pd n H V : symmetric n H -> product_is 1 n H V -> positive_definite n H -> positive_definite n V.
Proof.
  intros S P D x [i0 [Hi0 Nx]]. set (y := fun l => total n (fun j => V l j * x j)).
  assert (Hy : forall i, (i < n)%nat -> total n (fun l => H i l * y l) = x i).
  { intros i Hi. unfold y. rewrite (total_ext n _ (fun l => total n (fun j => H i l * V l j * x j))).
    2:{ intros l _. rewrite <- total_mult. apply total_ext. intros; ring. }
    rewrite (total_swap n n (fun l j => H i l * V l j * x j)). rewrite (total_ext n _ (fun j => (if (j =? i)%nat then 1 else 0) * x j)).
    - now rewrite total_delta.
    - intros j Hj. rewrite (total_ext n _ (fun l => x j * (H i l * V l j))) by (intros; ring). rewrite total_mult, P by assumption. rewrite Nat.eqb_sym. ring. }
  assert (E : form n V x x = form n H y y).
  { unfold form at 2. rewrite (total_ext n (fun i => total n (fun j => y i * H i j * y j)) (fun i => y i * x i)).
    2:{ intros i Hi. rewrite <- (Hy i Hi). rewrite <- total_mult. apply total_ext. intros; ring. }
    unfold form, y. apply total_ext. intros i Hi. rewrite Rmult_comm, <- total_mult. apply total_ext. intros; ring. }
  rewrite E. apply D. destruct (List.Exists_dec (fun j => y j <> 0) (seq 0 n) (fun j => match Req_EM_T (y j) 0 with left e => right (fun h => h e) | right n => left n end)) as [X|X].
  - apply Exists_exists in X as (j & Hj & Nj). apply in_seq in Hj. exists j. split; [lia|exact Nj].
  - exfalso. apply Nx. rewrite <- (Hy i0 Hi0). apply total_zero. intros l Hl. destruct (Req_EM_T (y l) 0) as [e|ne]; [rewrite e; ring|]. exfalso. apply X, Exists_exists. exists l. split; [apply in_seq; lia|exact ne].
Qed.
Definition twice (V : matrix) : matrix := map (map (Rmult 2)) V.
Lemma twice_entry V i j : entry (twice V) i j = 2 * entry V i j.
Proof.
  unfold entry, twice. change (@nil R) with (map (Rmult 2) []) at 1. rewrite (map_nth (map (Rmult 2))). rewrite <- (map_nth (Rmult 2)). f_equal. ring.
Qed.
Lemma twice_rows n V : rows n n V -> rows n n (twice V).
Proof. intros [L F]. split; [unfold twice; now rewrite map_length|]. unfold twice. apply Forall_map. eapply Forall_impl; [|exact F]. intros r Hr. now rewrite map_length. Qed.
Lemma form_twice n V u v : form n (entry (twice V)) u v = 2 * form n (entry V) u v.
Proof. unfold form. rewrite <- total_mult. apply total_ext. intros i _. rewrite <- total_mult. apply total_ext. intros j _. rewrite twice_entry. ring. Qed.

(** ** the reported values and errors *)
Lemma nan_sqrt_spec v : error_of v (nan_sqrt v).
Proof.
  unfold nan_sqrt, error_of. destruct (Rleb_spec 0 v) as [H|H]; [left|right; split; [lra|reflexivity]].
  exists (sqrt v). split; [reflexivity|]. split; [apply sqrt_pos|now apply sqrt_sqrt].
Qed.
Lemma combine_nth' {A B} (l : list A) (m : list B) i a b : length l = length m -> nth i (combine l m) (a, b) = (nth i l a, nth i m b).
Proof. apply combine_nth. Qed.
Lemma map_fst_combine {A B} (l : list A) (m : list B) : length l = length m -> map fst (combine l m) = l.
Proof. revert m. induction l as [|x l IH]; intros [|y m] H; try discriminate; [reflexivity|]. cbn. f_equal. apply IH. now injection H. Qed.
Definition reported (names : list str) (mle : list R) (var : nat -> R) (d : dict (R * option R)) : Prop :=
  map fst d = names /\ forall i, (i < length names)%nat -> exists e, get d (nth i names []) = Some (nth i mle 0, e) /\ error_of (var i) e.
Lemma mle_dict_spec names mle k m : NoDup names -> length names = k -> length mle = k -> rows k k m ->
  exists d, mle_dict names mle (Some m) = Ok d /\ reported names mle (fun i => entry m i i) d.
Proof.
  intros Nd Ln Lm [L F]. unfold mle_dict, errors, zip_strict. rewrite map_length, seq_length, L, Lm, Nat.eqb_refl. cbn [bind].
  set (es := map (fun i => nan_sqrt (nth i (nth i m []) 0)) (seq 0 k)). assert (Le : length es = k) by (unfold es; now rewrite map_length, seq_length).
  assert (Lc : length (combine mle es) = k) by (rewrite combine_length; lia). rewrite Lc, Ln, Nat.eqb_refl. cbn [bind]. eexists. split; [reflexivity|].
  rewrite puts_fresh by (cbn [map app]; rewrite map_fst_combine; [exact Nd|lia]). rewrite app_nil_l. split; [apply map_fst_combine; lia|].
  intros i Hi. exists (nan_sqrt (entry m i i)). split; [|apply nan_sqrt_spec].
  apply get_nodup; [rewrite map_fst_combine by lia; exact Nd|]. 
  assert (Hin : In (nth i (combine names (combine mle es)) ([], (0, None))) (combine names (combine mle es))) by (apply nth_In; rewrite combine_length; lia).
  rewrite combine_nth in Hin by lia. rewrite combine_nth in Hin by lia. 
  replace (nth i es None) with (nan_sqrt (entry m i i)) in Hin; [exact Hin|]. unfold es. rewrite nth_seq_map by lia. reflexivity.
Qed.

(** ** which covariance is used *)
Section Fit.
Variables (inv : matrix -> option matrix) (n k : nat) (jac hess : matrix).
Hypothesis Hinv : inverts inv.
Hypothesis Hjac : rows k n jac.
Hypothesis Hhess : rows n n hess.
Hypothesis Hsym : symmetric n (entry hess).
(** the covariance of the parameters that belongs to the covariance [C] of the free ones *)
Definition propagated (C : matrix) (i j : nat) : R := form n (entry C) (entry jac i) (entry jac j).

Lemma twice_inverse V : inv hess = Some V -> rows n n (twice V) /\ product_is 2 n (entry hess) (entry (twice V)) /\ symmetric n (entry (twice V)).
Proof.
  intros E. destruct (Hinv n hess V Hhess E) as [R P]. split; [now apply twice_rows|]. split.
  - intros i j Hi Hj. rewrite (total_ext n _ (fun l => 2 * (entry hess i l * entry V l j))) by (intros; rewrite twice_entry; ring). rewrite total_mult, P by assumption. destruct (i =? j)%nat; ring.
  - intros i j Hi Hj. rewrite !twice_entry. f_equal. now apply (inverse_sym n (entry hess)).
Qed.
Lemma pos_def_check_spec C : rows n n C -> symmetric n (entry C) -> (pos_def_check (Some (params_covar n jac C)) = true <-> positive_definite k (propagated C)).
Proof.
  intros R S. assert (Sq := params_covar_rows n k jac C Hjac). assert (En : forall i j, (i < k)%nat -> (j < k)%nat -> entry (params_covar n jac C) i j = propagated C i j).
  { intros i j Hi Hj. apply params_covar_entry with (k := k); try assumption. apply R. }
  assert (Sy : symmetric k (entry (params_covar n jac C))).
  { intros i j Hi Hj. rewrite !En by assumption. unfold propagated. now apply form_sym. }
  unfold pos_def_check. rewrite (proj1 Sq). rewrite allclose_sym by exact Sy. rewrite (cholesky_spec k _ Sq Sy).
  split; apply positive_definite_ext; intros; [|symmetry]; now apply En.
Qed.
Lemma pd_independent C : rows n n C -> symmetric n (entry C) -> positive_definite n (entry C) -> (positive_definite k (propagated C) <-> independent k n (entry jac)).
Proof.
  intros R S D. assert (F : forall x, form k (propagated C) x x = form n (entry C) (fun a => total k (fun i => x i * entry jac i a)) (fun a => total k (fun i => x i * entry jac i a))).
  { intros x. rewrite <- form_params by (try exact Hjac; apply R). apply form_ext; [|reflexivity|reflexivity]. intros i j Hi Hj. symmetry. apply params_covar_entry with (k := k); try assumption. apply R. }
  split.
  - intros P y Hy i Hi. destruct (Req_EM_T (y i) 0) as [e|ne]; [exact e|]. exfalso. assert (Q : 0 < form k (propagated C) y y) by (apply P; exists i; split; assumption).
    rewrite F in Q. rewrite (form_ext n (entry C) (entry C) _ _ (fun _ => 0) (fun _ => 0)) in Q; [|reflexivity|exact Hy|exact Hy].
    assert (Z : form n (entry C) (fun _ => 0) (fun _ => 0) = 0) by (apply total_zero; intros; apply total_zero; intros; ring). lra.
  - intros I x [i [Hi Nx]]. rewrite F. apply D. set (z := fun a => total k (fun i => x i * entry jac i a)).
    destruct (List.Exists_dec (fun j => z j <> 0) (seq 0 n) (fun j => match Req_EM_T (z j) 0 with left e => right (fun h => h e) | right n => left n end)) as [X|X].
    + apply Exists_exists in X as (j & Hj & Nj). apply in_seq in Hj. exists j. split; [lia|exact Nj].
    + exfalso. apply Nx. apply I; [|exact Hi]. intros a Ha. destruct (Req_EM_T (z a) 0) as [e|ne]; [exact e|]. exfalso. apply X, Exists_exists. exists a. split; [apply in_seq; lia|exact ne].
Qed.
(** more parameters than free ones: the propagated covariance is never positive definite *)
Lemma never_pd C : rows n n C -> (n < k)%nat -> ~ positive_definite k (propagated C).
Proof.
  intros R Hk P. destruct (dependent n k (entry jac) Hk) as (y & Ny & Hy). specialize (P y Ny).
  assert (F : form k (propagated C) y y = form k (entry (params_covar n jac C)) y y).
  { apply form_ext; [|reflexivity|reflexivity]. intros i j Hi Hj. symmetry. apply params_covar_entry with (k := k); try assumption. apply R. }
  rewrite F, (form_params n k) in P by (try exact Hjac; apply R). rewrite (form_ext n (entry C) (entry C) _ _ (fun _ => 0) (fun _ => 0)) in P; [|reflexivity|exact Hy|exact Hy].
  assert (Z : form n (entry C) (fun _ => 0) (fun _ => 0) = 0) by (apply total_zero; intros; apply total_zero; intros; ring). lra.
Qed.
Lemma mle_covar_some V : inv hess = Some V -> mle_covar inv n jac hess = Some (params_covar n jac (twice V)).
Proof. intros E. unfold mle_covar, unconstr_covar. rewrite E. reflexivity. Qed.
Variables (names : list str) (mle : list R).
Hypothesis Hnames : NoDup names.
Hypothesis Ln : length names = k.
Hypothesis Lm : length mle = k.
Lemma reported_of C : rows n n C -> exists d, mle_dict names mle (Some (params_covar n jac C)) = Ok d /\ reported names mle (fun i => propagated C i i) d.
Proof.
  intros R. destruct (mle_dict_spec names mle k (params_covar n jac C) Hnames Ln Lm (params_covar_rows n k jac C Hjac)) as (d & E & K & H).
  exists d. split; [exact E|]. split; [exact K|]. intros i Hi. destruct (H i Hi) as (e & G & Ee). exists e. split; [exact G|]. unfold propagated.
  rewrite <- (params_covar_entry n k jac C i i) by (try assumption; try lia; apply R). exact Ee.
Qed.

(** At a minimum of the deviance (positive definite Hessian [H]) with parameters that depend on the free ones independently, the error of
    every parameter is the root of [J_i C J_i], with [C = 2 H⁻¹] the inverse of the observed information; no error is missing. *)
Theorem C105_errors : forall V minuit, inv hess = Some V -> positive_definite n (entry hess) -> independent k n (entry jac) ->
  exists C d, product_is 2 n (entry hess) (entry C) /\ mle_result inv n names mle jac hess minuit = Ok d /\ map fst d = names /\
    forall i, (i < k)%nat -> exists x, get d (nth i names []) = Some (nth i mle 0, Some x) /\ 0 < x /\ x * x = form n (entry C) (entry jac i) (entry jac i).
Proof.
  intros V minuit E D I. destruct (twice_inverse V E) as (R & P & S). exists (twice V).
  assert (D2 : positive_definite n (entry (twice V))).
  { intros x Hx. rewrite form_twice. destruct (Hinv n hess V Hhess E) as [RV PV]. pose proof (inverse_pd n (entry hess) (entry V) Hsym PV D x Hx). lra. }
  assert (Pk := proj2 (pd_independent (twice V) R S D2) I).
  unfold mle_result, fit_covar. rewrite (mle_covar_some V E), (proj2 (pos_def_check_spec (twice V) R S) Pk).
  destruct (reported_of (twice V) R) as (d & Ed & K & H). exists d. split; [exact P|]. split; [exact Ed|]. split; [exact K|]. intros i Hi.
  destruct (H i ltac:(lia)) as (e & G & Ee). 
  assert (Pv : 0 < propagated (twice V) i i).
  { specialize (Pk (fun j => if (j =? i)%nat then 1 else 0)). assert (Q : 0 < form k (propagated (twice V)) (fun j => if (j =? i)%nat then 1 else 0) (fun j => if (j =? i)%nat then 1 else 0)).
    { apply Pk. exists i. split; [exact Hi|]. rewrite Nat.eqb_refl. lra. }
    unfold form at 1 in Q. rewrite (total_ext k _ (fun a => (if (a =? i)%nat then 1 else 0) * total k (fun b => (if (b =? i)%nat then 1 else 0) * propagated (twice V) a b))) in Q.
    - rewrite total_delta in Q by exact Hi. now rewrite (total_delta k i (fun b => propagated (twice V) i b)) in Q.
    - intros a _. rewrite <- total_mult. apply total_ext. intros; ring. }
  destruct Ee as [(x & -> & X0 & X2)|[Neg _]]; [|exfalso; lra]. exists x. split; [exact G|]. split; [|exact X2].
  destruct (Req_EM_T x 0) as [->|]; [lra|lra].
Qed.

(** In general the errors come from the Hessian if the covariance it gives for the parameters is positive definite or Minuit has none;
    otherwise from the covariance of Minuit. *)
Theorem C105_chosen : forall V minuit, inv hess = Some V -> (forall m, minuit = Some m -> rows n n m) ->
  exists C d, product_is 2 n (entry hess) (entry C) /\ mle_result inv n names mle jac hess minuit = Ok d /\
    (positive_definite k (fun i j => form n (entry C) (entry jac i) (entry jac j)) \/ minuit = None -> reported names mle (fun i => form n (entry C) (entry jac i) (entry jac i)) d) /\
    (forall m, minuit = Some m -> ~ positive_definite k (fun i j => form n (entry C) (entry jac i) (entry jac j)) -> reported names mle (fun i => form n (entry m) (entry jac i) (entry jac i)) d).
Proof.
  intros V minuit E Hm. destruct (twice_inverse V E) as (R & P & S). exists (twice V). pose proof (pos_def_check_spec (twice V) R S) as Pk.
  unfold mle_result, fit_covar. rewrite (mle_covar_some V E). destruct (pos_def_check (Some (params_covar n jac (twice V)))).
  - destruct (reported_of (twice V) R) as (d & Ed & H). exists d. split; [exact P|]. split; [exact Ed|]. split; [intros _; exact H|]. intros m _ Np. exfalso. apply Np. now apply Pk.
  - destruct minuit as [m|].
    + destruct (reported_of m (Hm m eq_refl)) as (d & Ed & H). exists d. split; [exact P|]. split; [exact Ed|]. split.
      * intros [Q|Q]; [|discriminate]. exfalso. apply Pk in Q. discriminate.
      * intros m' Em _. injection Em as <-. exact H.
    + destruct (reported_of (twice V) R) as (d & Ed & H). exists d. split; [exact P|]. split; [exact Ed|]. split; [intros _; exact H|]. intros m Em. discriminate.
Qed.
(** a Hessian that cannot be inverted: the covariance of Minuit, or no error at all *)
Theorem C105_singular : forall minuit, inv hess = None -> (forall m, minuit = Some m -> rows n n m) ->
  exists d, mle_result inv n names mle jac hess minuit = Ok d /\
    match minuit with
    | Some m => reported names mle (fun i => form n (entry m) (entry jac i) (entry jac i)) d
    | None => map fst d = names /\ forall i, (i < k)%nat -> get d (nth i names []) = Some (nth i mle 0, None)
    end.
Proof.
  intros minuit E Hm. unfold mle_result, fit_covar, mle_covar, unconstr_covar. rewrite E. cbn [option_map pos_def_check].
  destruct minuit as [m|]; [exact (reported_of m (Hm m eq_refl))|].
  unfold mle_dict, errors, zip_strict. rewrite repeat_length, Nat.eqb_refl. cbn [bind]. rewrite combine_length, repeat_length, Nat.min_id, Ln, Lm, Nat.eqb_refl. cbn [bind]. eexists. split; [reflexivity|].
  assert (Lc : length names = length (combine mle (repeat (@None R) k))) by (rewrite combine_length, repeat_length; lia).
  rewrite puts_fresh by (cbn [map app]; rewrite map_fst_combine; [exact Hnames|exact Lc]). rewrite app_nil_l. split; [now apply map_fst_combine|]. intros i Hi.
  apply get_nodup; [rewrite map_fst_combine by exact Lc; exact Hnames|].
  assert (Hin : In (nth i (combine names (combine mle (repeat (@None R) k))) ([], (0, None))) (combine names (combine mle (repeat (@None R) k)))) by (apply nth_In; rewrite !combine_length, repeat_length; lia).
  rewrite combine_nth in Hin by exact Lc. rewrite combine_nth in Hin by (rewrite repeat_length; lia). rewrite nth_repeat in Hin. exact Hin.
Qed.
(** With more parameters than free ones (a parameter that is a function of others) the Hessian is never used when Minuit has a covariance. *)
Theorem C105_derived_refuted : forall m, (n < k)%nat -> rows n n m ->
  exists d, mle_result inv n names mle jac hess (Some m) = Ok d /\ reported names mle (fun i => form n (entry m) (entry jac i) (entry jac i)) d.
Proof.
  intros m Hk Rm. destruct (inv hess) as [V|] eqn:E.
  - destruct (twice_inverse V E) as (R & P & S). pose proof (pos_def_check_spec (twice V) R S) as Pk.
    unfold mle_result, fit_covar. rewrite (mle_covar_some V E). destruct (pos_def_check (Some (params_covar n jac (twice V)))).
    + exfalso. apply (never_pd (twice V) R Hk). now apply Pk.
    + exact (reported_of m Rm).
  - destruct (C105_singular (Some m) E) as (d & Ed & H); [intros m' Em; injection Em as <-; exact Rm|]. exists d. split; assumption.
Qed.
(** The maximum of a posterior uses the Hessian without any check. *)
Theorem C105_posterior : forall V, inv hess = Some V ->
  exists C d, product_is 2 n (entry hess) (entry C) /\ posterior_mle inv n names mle jac hess = Ok d /\ reported names mle (fun i => form n (entry C) (entry jac i) (entry jac i)) d.
Proof.
  intros V E. destruct (twice_inverse V E) as (R & P & S). destruct (reported_of (twice V) R) as (d & Ed & H). exists (twice V), d.
  split; [exact P|]. split; [|exact H]. unfold posterior_mle. rewrite (mle_covar_some V E). exact Ed.
Qed.
End Fit.

(** a parameter of one free parameter [a] only: [|dp/da| σ_a] *)
Theorem C105_one : forall n C J a e, (a < n)%nat -> 0 <= C a a -> (forall b, (b < n)%nat -> b <> a -> J b = 0) -> error_of (form n C J J) e -> e = Some (Rabs (J a) * sqrt (C a a)).
Proof.
  intros n C J a e Ha C0 HJ He. assert (F : form n C J J = J a * J a * C a a).
  { unfold form. rewrite (total_ext n _ (fun i => (if (i =? a)%nat then 1 else 0) * (J a * J a * C a a))).
    - now rewrite (total_delta n a (fun _ => J a * J a * C a a)).
    - intros i Hi. destruct (Nat.eqb_spec i a) as [->|Ni].
      + rewrite (total_ext n _ (fun j => (if (j =? a)%nat then 1 else 0) * (J a * C a j * J a))).
        * rewrite total_delta by exact Ha. ring.
        * intros j Hj. destruct (Nat.eqb_spec j a) as [->|Nj]; [ring|rewrite (HJ j) by assumption; ring].
      + rewrite (HJ i) by assumption. rewrite total_zero by (intros; ring). ring. }
  rewrite F in He. assert (Q : 0 <= J a * J a) by apply (Rle_0_sqr (J a)). destruct He as [(x & -> & X0 & X2)|[Neg _]]; [|exfalso; assert (0 <= J a * J a * C a a) by (now apply Rmult_le_pos); lra].
  f_equal. assert (Y0 : 0 <= Rabs (J a) * sqrt (C a a)) by (apply Rmult_le_pos; [apply Rabs_pos|apply sqrt_pos]).
  assert (Y2 : (Rabs (J a) * sqrt (C a a)) * (Rabs (J a) * sqrt (C a a)) = J a * J a * C a a).
  { replace ((Rabs (J a) * sqrt (C a a)) * (Rabs (J a) * sqrt (C a a))) with ((Rabs (J a) * Rabs (J a)) * (sqrt (C a a) * sqrt (C a a))) by ring. rewrite sqrt_sqrt by exact C0.
    change (Rabs (J a) * Rabs (J a)) with (Rsqr (Rabs (J a))). rewrite <- Rsqr_abs. reflexivity. }
  apply Rsqr_inj; [exact X0|exact Y0|]. unfold Rsqr. now rewrite X2, Y2.
Qed.
(** no error is missing when the covariance used is (semi-)definite *)
Theorem C105_defined : forall n C J e, (forall x, 0 <= form n C x x) -> error_of (form n C J J) e -> exists x, e = Some x.
Proof. intros n C J e P [(x & -> & _)|[Neg _]]; [now exists x|]. specialize (P J). lra. Qed.

(** ** concrete cases *)
(** the inverse of matrices of one entry *)
Definition inv1 (m : matrix) : option matrix := match m with [[h]] => if Reqb h 0 then None else Some [[1 / h]] | _ => None end.
Lemma inv1_ok : inverts inv1.
Proof.
  intros n H V R E. destruct H as [|[|h [|]] [|]]; try discriminate. destruct R as [L F]. cbn in L. subst n. cbn in E. destruct (Reqb_spec h 0) as [|Nh]; [discriminate|]. injection E as <-.
  split; [split; [reflexivity|repeat constructor]|]. intros i j Hi Hj. assert (i = 0%nat) by lia. assert (j = 0%nat) by lia. subst. unfold total, entry. cbn. field. exact Nh.
Qed.
Definition pname : list str := [s2l "a"].
Definition pnames : list str := [s2l "a"; s2l "twice_a"].
Lemma form_1 (C u v : list (list R)) a b c : entry C 0 0 = a -> entry u 0 0 = b -> entry v 0 0 = c -> form 1 (entry C) (entry u 0) (entry v 0) = b * a * c.
Proof. intros <- <- <-. unfold form, total. cbn. ring. Qed.
(** one free parameter with [d²D/da² = 2]: its error is 1 *)
Example C105_errors_ex : exists d, mle_result inv1 1 pname [3] [[1]] [[2]] (Some [[4]]) = Ok d /\ get d (s2l "a") = Some (3, Some 1).
Proof.
  assert (Rj : rows 1 1 [[1]]) by (split; [reflexivity|repeat constructor]). assert (Rh : rows 1 1 [[2]]) by (split; [reflexivity|repeat constructor]).
  assert (Sy : symmetric 1 (entry [[2]])) by (intros i j Hi Hj; replace i with O by lia; now replace j with O by lia).
  assert (Nd : NoDup pname) by (constructor; [easy|constructor]).
  destruct (C105_errors inv1 1 1 [[1]] [[2]] inv1_ok Rj Rh Sy pname [3] Nd eq_refl eq_refl [[1 / 2]] (Some [[4]])) as (C & d & P & E & K & H).
  - cbn. destruct (Reqb_spec 2 0); [lra|reflexivity].
  - intros x (i & Hi & Nx). replace i with O in Nx by lia. unfold form, total, entry. cbn. assert (0 < x O * x O) by nra. lra.
  - intros y Hy i Hi. replace i with O by lia. specialize (Hy O ltac:(lia)). unfold total, entry in Hy. cbn in Hy. lra.
  - exists d. split; [exact E|]. destruct (H O ltac:(lia)) as (x & G & X0 & X2). cbn [nth pname] in G. change (nth 0 pname []) with (s2l "a") in G. rewrite G. do 3 f_equal.
    specialize (P O O ltac:(lia) ltac:(lia)). unfold total in P. cbn [seq map Nat.eqb] in P. unfold rsum in P. cbn [fold_right] in P. unfold form, total in X2. cbn [seq map] in X2. unfold rsum in X2. cbn [fold_right] in X2.
    change (entry [[2]] 0 0) with 2 in P. change (entry [[1]] 0 0) with 1 in X2. nra.
Qed.
(** ... and 2, the error of Minuit, once the parameter [twice_a = 2 a] is added to the model *)
Example C105_adding_parameter_refuted : exists d, mle_result inv1 1 pnames [3; 6] [[1]; [2]] [[2]] (Some [[4]]) = Ok d /\ get d (s2l "a") = Some (3, Some 2) /\ get d (s2l "twice_a") = Some (6, Some 4).
Proof.
  assert (Rj : rows 2 1 [[1]; [2]]) by (split; [reflexivity|repeat constructor]). assert (Rh : rows 1 1 [[2]]) by (split; [reflexivity|repeat constructor]).
  assert (Sy : symmetric 1 (entry [[2]])) by (intros i j Hi Hj; replace i with O by lia; now replace j with O by lia).
  assert (Nd : NoDup pnames) by (constructor; [intros [|[]]; discriminate|constructor; [easy|constructor]]).
  destruct (C105_derived_refuted inv1 1 2 [[1]; [2]] [[2]] inv1_ok Rj Rh Sy pnames [3; 6] Nd eq_refl eq_refl [[4]]) as (d & E & K & H); [lia|split; [reflexivity|repeat constructor]|].
  assert (A : forall u e, 0 <= u -> error_of (u * 4 * u) e -> e = Some (2 * u)).
  { intros u e Hu [(x & -> & X0 & X2)|[Neg _]]; [|nra]. f_equal. apply Rsqr_inj; [exact X0|lra|]. unfold Rsqr. lra. }
  exists d. split; [exact E|].
  destruct (H 0%nat ltac:(cbn; lia)) as (e1 & G1 & Er1). destruct (H 1%nat ltac:(cbn; lia)) as (e2 & G2 & Er2).
  change (form 1 (entry [[4]]) (entry [[1]; [2]] 0) (entry [[1]; [2]] 0)) with (form 1 (entry [[4]]) (entry [[1]] 0) (entry [[1]] 0)) in Er1. rewrite (form_1 _ _ _ 4 1 1) in Er1 by reflexivity.
  change (form 1 (entry [[4]]) (entry [[1]; [2]] 1) (entry [[1]; [2]] 1)) with (form 1 (entry [[4]]) (entry [[2]] 0) (entry [[2]] 0)) in Er2. rewrite (form_1 _ _ _ 4 2 2) in Er2 by reflexivity.
  apply (A 1) in Er1; [|lra]. apply (A 2) in Er2; [|lra]. subst e1 e2. split.
  - change (nth 0 pnames []) with (s2l "a") in G1. rewrite G1. cbn [nth]. now replace (2 * 1) with 2 by lra.
  - change (nth 1 pnames []) with (s2l "twice_a") in G2. rewrite G2. cbn [nth]. now replace (2 * 2) with 4 by lra.
Qed.
(** at a maximum of the deviance, without a covariance of Minuit, there is no error *)
Example C105_no_error : exists d, posterior_mle inv1 1 pname [3] [[1]] [[-2]] = Ok d /\ get d (s2l "a") = Some (3, None).
Proof.
  assert (Rj : rows 1 1 [[1]]) by (split; [reflexivity|repeat constructor]). assert (Rh : rows 1 1 [[-2]]) by (split; [reflexivity|repeat constructor]).
  assert (Sy : symmetric 1 (entry [[-2]])) by (intros i j Hi Hj; replace i with O by lia; now replace j with O by lia).
  assert (Nd : NoDup pname) by (constructor; [easy|constructor]).
  destruct (C105_posterior inv1 1 1 [[1]] [[-2]] inv1_ok Rj Rh Sy pname [3] Nd eq_refl eq_refl [[1 / -2]]) as (C & d & P & E & K & H).
  - cbn. destruct (Reqb_spec (-2) 0); [lra|reflexivity].
  - exists d. split; [exact E|]. destruct (H O ltac:(cbn; lia)) as (e & G & Ee). change (nth 0 pname []) with (s2l "a") in G. cbn [nth] in G. rewrite G.
    specialize (P O O ltac:(lia) ltac:(lia)). unfold total in P. cbn [seq map Nat.eqb] in P. unfold rsum in P. cbn [fold_right] in P. change (entry [[-2]] 0 0) with (-2) in P.
    rewrite (form_1 C [[1]] [[1]] (entry C 0 0) 1 1) in Ee by reflexivity. destruct Ee as [(x & _ & X0 & X2)|[_ ->]]; [nra|reflexivity].
Qed.
(** a flat deviance: no error without Minuit's *)
Example C105_singular_ex : exists d, mle_result inv1 1 pname [3] [[1]] [[0]] None = Ok d /\ get d (s2l "a") = Some (3, None).
Proof.
  assert (Rj : rows 1 1 [[1]]) by (split; [reflexivity|repeat constructor]).
  assert (Nd : NoDup pname) by (constructor; [easy|constructor]).
  destruct (C105_singular inv1 1 1 [[1]] [[0]] Rj pname [3] Nd eq_refl eq_refl None) as (d & E & K & H).
  - cbn. destruct (Reqb_spec 0 0); [reflexivity|lra].
  - intros m Em; discriminate.
  - exists d. split; [exact E|]. apply (H O). lia.
Qed.
Print Assumptions C105_errors.
Print Assumptions C105_chosen.
Print Assumptions C105_singular.
Print Assumptions C105_derived_refuted.
Print Assumptions C105_posterior.
Print Assumptions C105_one.
Print Assumptions C105_defined.
