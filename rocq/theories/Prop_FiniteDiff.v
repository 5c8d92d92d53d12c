(** C83: derivatives of models by finite differences. *)
From Coquelicot Require Import Coquelicot.
From Verif Require Import RBase Data FiniteDiff.
From Coq Require Import List Lia.
Import ListNotations.
Open Scope R_scope.
Open Scope list_scope.

(** ** specification *)
(** the difference quotient of a function of one variable *)
Definition fd_step (method : fd_method) (eps x : R) : R :=
  (if Req_EM_T x 0 then 1 else Rabs x) * match method with Central => Rpower eps (1 / 3) | _ => sqrt eps end.
Definition quotient (method : fd_method) (eps : R) (g : R -> R) (x : R) : R :=
  let h := fd_step method eps x in match method with Central => (g (x + h) - g (x - h)) / (2 * h) | _ => (g (x + h) - g x) / h end.
(** parameter i replaced by s *)
Definition with_value (params : list R) (i : nat) (s : R) : list R := firstn i params ++ s :: skipn (S i) params.

Lemma shifted_eq params i d : (i < length params)%nat -> shifted params i d = with_value params i (nth i params 0 + d).
Proof.
  intros Hi. unfold shifted, with_value, one_hot. rewrite map_map.
  assert (Z0 : forall (ps : list R) k, (i < k)%nat -> zip2 Rplus ps (map (fun x => (if (x =? i)%nat then 1 else 0) * d) (seq k (length ps))) = ps).
  { induction ps as [|p ps IH]; intros k Hk; [reflexivity|]. cbn [length seq map zip2]. destruct (Nat.eqb_spec k i); [lia|]. rewrite IH by lia. f_equal. ring. }
  assert (G : forall ps k j, (j < length ps)%nat -> (k + j = i)%nat -> zip2 Rplus ps (map (fun x => (if (x =? i)%nat then 1 else 0) * d) (seq k (length ps))) = firstn j ps ++ (nth j ps 0 + d) :: skipn (S j) ps).
  { induction ps as [|p ps IH]; intros k j Hj E; [cbn in Hj; lia|]. cbn [length seq map zip2]. destruct j as [|j].
    - destruct (Nat.eqb_spec k i); [|lia]. cbn [firstn app nth skipn]. rewrite Z0 by lia. f_equal. ring.
    - destruct (Nat.eqb_spec k i); [lia|]. cbn [firstn app nth]. rewrite (IH (S k) j) by (cbn in Hj; lia). cbn [skipn]. f_equal. ring. }
  apply (G params O i Hi). reflexivity.
Qed.
Lemma with_same params i : (i < length params)%nat -> with_value params i (nth i params 0) = params.
Proof. revert i. induction params as [|p ps IH]; intros [|i] H; cbn in *; try lia; [reflexivity|]. unfold with_value in *. cbn. f_equal. apply IH. lia. Qed.
Lemma nth_zip2 f a b j : length a = length b -> (j < length a)%nat -> nth j (zip2 f a b) 0 = f (nth j a 0) (nth j b 0).
Proof. revert b j. induction a as [|x a IH]; intros [|y b] [|j] L H; cbn in *; try lia; [reflexivity|]. apply IH; lia. Qed.
Lemma zip2_len (f : R -> R -> R) a b : length a = length b -> length (zip2 f a b) = length a.
Proof. revert b. induction a as [|x a IH]; intros [|y b] L; cbn in *; try lia. rewrite IH; lia. Qed.
Lemma fd_row_nth method eps f params i j m : (forall p, length (f p) = m) -> (i < length params)%nat -> (j < m)%nat ->
  nth j (fd_row method eps f params i) 0 = quotient method eps (fun s => nth j (f (with_value params i s)) 0) (nth i params 0).
Proof.
  intros Hm Hi Hj. unfold fd_row, quotient, fd_step, abs_or_one, Reqb. set (a := if Req_EM_T _ _ then true else false).
  assert (Ea : (if a then 1 else Rabs (nth i params 0)) = (if Req_EM_T (nth i params 0) 0 then 1 else Rabs (nth i params 0))) by (unfold a; now destruct (Req_EM_T _ _)).
  rewrite Ea. clear a Ea. cbv zeta. set (b := if Req_EM_T _ _ then 1 else _).
  assert (G : forall h A B, length A = m -> length B = m -> nth j (map (fun d => d / h) (zip2 Rminus A B)) 0 = (nth j A 0 - nth j B 0) / h).
  { intros h A B LA LB. rewrite (nth_indep _ 0 (0 / h)) by (rewrite map_length, zip2_len; lia). rewrite (map_nth (fun d => d / h)). f_equal. apply nth_zip2; lia. }
  destruct method; rewrite G by apply Hm; rewrite !shifted_eq by exact Hi; rewrite ?(with_same params i Hi); reflexivity.
Qed.
Lemma nonzero_in tangents i : In i (nonzero_idx tangents) <-> exists t, nth i tangents None = Some t.
Proof.
  unfold nonzero_idx. rewrite in_map_iff. split.
  - intros ((k & o) & <- & H). apply filter_In in H as (H & S). cbn in S. destruct o as [t|]; [|discriminate]. exists t. cbn [fst].
    apply (In_nth _ _ (O, None)) in H as (n & Hn & E). rewrite combine_length, seq_length, Nat.min_id in Hn. rewrite combine_nth in E by apply seq_length. rewrite seq_nth in E by exact Hn. injection E as <- E. exact E.
  - intros (t & E). assert (Hi : (i < length tangents)%nat) by (destruct (Nat.lt_ge_cases i (length tangents)) as [L|L]; [exact L|]; rewrite nth_overflow in E by exact L; discriminate).
    exists (i, Some t). split; [reflexivity|]. apply filter_In. split; [|reflexivity]. rewrite <- E. assert (X : (i, nth i tangents None) = nth i (combine (seq 0 (length tangents)) tangents) (O, None)) by (rewrite combine_nth by apply seq_length; now rewrite seq_nth).
    rewrite X. apply nth_In. rewrite combine_length, seq_length. lia.
Qed.
Lemma nonzero_sum (g : nat -> R -> R) : forall tangents k, rsum (map (fun p => match snd p with Some t => g (fst p) t | None => 0 end) (filter (fun p => match snd p with Some _ => true | None => false end) (combine (seq k (length tangents)) tangents)))
  = rsum (map (fun p => match snd p with Some t => g (fst p) t | None => 0 end) (combine (seq k (length tangents)) tangents)).
Proof. induction tangents as [|[t|] l IH]; intros k; [reflexivity| |]; cbn [length seq combine filter snd map rsum fold_right fst]; unfold rsum in IH; rewrite IH; [reflexivity|ring]. Qed.
Lemma nth_map_seq (F : nat -> R) n j : (j < n)%nat -> nth j (map F (seq 0 n)) 0 = F j.
Proof. intros H. rewrite (nth_indep _ 0 (F O)) by now rewrite map_length, seq_length. rewrite map_nth. now rewrite seq_nth. Qed.
(** what the derivative is made of *)
Theorem C83_quotients : forall method eps f params tangents out tan m, (forall p, length (f p) = m) -> length tangents = length params ->
  fdjvp method eps f params false tangents = Ok (out, tan) ->
  out = f params /\ length tan = m /\
  forall j, (j < m)%nat -> nth j tan 0 = rsum (map (fun p => match snd p with
    | Some t => t * quotient method eps (fun s => nth j (f (with_value params (fst p) s)) 0) (nth (fst p) params 0)
    | None => 0 end) (combine (seq 0 (length params)) tangents)).
Proof.
  intros method eps f params tangents out tan m Hm L H. unfold fdjvp in H. destruct method; [| |discriminate].
  all: destruct (nonzero_idx tangents) as [|i0 il] eqn:E; [discriminate|]; rewrite <- E in H; injection H as <- <-;
    (split; [reflexivity|]; split; [rewrite map_length, seq_length; apply Hm|]); intros j Hj;
    rewrite nth_map_seq by (rewrite Hm; exact Hj).
  all: rewrite map_map; match goal with |- context [fd_row ?m0] => set (mt := m0) end;
    assert (Z2 : forall A (l : list A) (u v : A -> R), zip2 Rmult (map u l) (map v l) = map (fun x => u x * v x) l) by (intros A l u v; induction l as [|x l IH]; [reflexivity|]; cbn; now rewrite IH);
    rewrite Z2; rewrite <- L;
    rewrite <- (nonzero_sum (fun i t => t * quotient mt eps (fun s => nth j (f (with_value params i s)) 0) (nth i params 0)) tangents 0);
    unfold nonzero_idx; rewrite map_map; f_equal; apply map_ext_in; intros (i, o) Hin;
    (assert (Hi : In i (nonzero_idx tangents)) by (unfold nonzero_idx; apply in_map_iff; exists (i, o); auto));
    apply filter_In in Hin as (Hin & S); cbn [fst snd] in *;
    (assert (Ho : nth i tangents None = o /\ (i < length tangents)%nat)
      by (apply (In_nth _ _ (O, None)) in Hin as (n & Hn & En); rewrite combine_length, seq_length, Nat.min_id in Hn; rewrite combine_nth in En by apply seq_length; rewrite seq_nth in En by exact Hn; injection En as <- En; auto));
    destruct Ho as (-> & Hlt); destruct o as [t|]; [|discriminate]; f_equal; apply (fd_row_nth mt eps f params i j m); [exact Hm|lia|exact Hj].
Qed.
Print Assumptions C83_quotients.
(** hence: linear in the tangents, and parameters with a symbolic zero tangent are left alone *)
Theorem C83_linear : forall method eps f params t u a b m o1 o2 o3 s1 s2 s3, (forall p, length (f p) = m) -> length t = length params -> length u = length params ->
  fdjvp method eps f params false (map Some t) = Ok (o1, s1) -> fdjvp method eps f params false (map Some u) = Ok (o2, s2) ->
  fdjvp method eps f params false (map Some (zip2 (fun x y => a * x + b * y) t u)) = Ok (o3, s3) ->
  forall j, (j < m)%nat -> nth j s3 0 = a * nth j s1 0 + b * nth j s2 0.
Proof.
  intros method eps f params t u a b m o1 o2 o3 s1 s2 s3 Hm Lt Lu H1 H2 H3 j Hj.
  assert (L3 : length (zip2 (fun x y => a * x + b * y) t u) = length params) by (rewrite zip2_len; lia).
  apply (C83_quotients _ _ _ _ _ _ _ m Hm) in H1 as (_ & _ & H1); [|now rewrite map_length]. apply (C83_quotients _ _ _ _ _ _ _ m Hm) in H2 as (_ & _ & H2); [|now rewrite map_length].
  apply (C83_quotients _ _ _ _ _ _ _ m Hm) in H3 as (_ & _ & H3); [|now rewrite map_length]. rewrite H1, H2, H3 by exact Hj. clear H1 H2 H3.
  generalize (fun i => quotient method eps (fun s => nth j (f (with_value params i s)) 0) (nth i params 0)). intros Q.
  clear L3. rewrite <- Lt. assert (L : length t = length u) by lia. clear - L. generalize O as k. revert u L. induction t as [|x t IH]; intros [|y u] L k; cbn in L; try lia; [cbn; ring|].
  cbn [length seq map zip2 combine rsum fold_right snd fst]. specialize (IH u ltac:(lia) (S k)). unfold rsum in IH. rewrite IH. ring.
Qed.
Print Assumptions C83_linear.

(** ** how good the quotients are *)
Lemma fd_step_pos method eps x : 0 < eps -> 0 < fd_step method eps x.
Proof.
  intros He. unfold fd_step. apply Rmult_lt_0_compat.
  - destruct (Req_EM_T x 0); [lra|now apply Rabs_pos_lt].
  - destruct method; try now apply sqrt_lt_R0. unfold Rpower. apply exp_pos.
Qed.
(** exact for straight lines, and the central one for parabolas *)
Theorem C83_exact : forall eps a b c x, 0 < eps ->
  quotient Forward eps (fun s => b * s + c) x = b /\ quotient Central eps (fun s => a * s * s + b * s + c) x = 2 * a * x + b.
Proof.
  intros eps a b c x He. unfold quotient. cbv zeta. pose proof (fd_step_pos Forward eps x He). pose proof (fd_step_pos Central eps x He). split; field; lra.
Qed.
Print Assumptions C83_exact.
(** the quotient is the derivative at some point within one step *)
Theorem C83_mean_value : forall method eps (g dg : R -> R) x, 0 < eps -> method <> Other ->
  (forall s, Rabs (s - x) <= fd_step method eps x -> is_derive g s (dg s)) ->
  exists c, Rabs (c - x) <= fd_step method eps x /\ quotient method eps g x = dg c.
Proof.
  intros method eps g dg x He Hm D. pose proof (fd_step_pos method eps x He) as Hp. unfold quotient. cbv zeta. set (h := fd_step method eps x) in *.
  assert (M : forall p q, p < q -> x - h <= p -> q <= x + h -> exists c, p <= c <= q /\ g q - g p = dg c * (q - p)).
  { intros p q Hpq Hl Hr. destruct (MVT_gen g p q dg) as (c & Hc & E).
    - intros s Hs. rewrite Rmin_left, Rmax_right in Hs by lra. apply D. apply Rabs_le. lra.
    - intros s Hs. rewrite Rmin_left, Rmax_right in Hs by lra. apply continuity_pt_filterlim. apply (ex_derive_continuous g). eexists. apply D. apply Rabs_le. lra.
    - rewrite Rmin_left, Rmax_right in Hc by lra. exists c. split; [exact Hc|exact E]. }
  destruct method; [| |contradiction].
  - destruct (M (x - h) (x + h)) as (c & Hc & E); try lra. exists c. split; [apply Rabs_le; lra|]. rewrite E. field. lra.
  - destruct (M x (x + h)) as (c & Hc & E); try lra. exists c. split; [apply Rabs_le; lra|]. rewrite E. field. lra.
Qed.
Print Assumptions C83_mean_value.
(** comparison of a function with one that grows faster *)
Lemma grows (phi psi dphi dpsi : R -> R) h : 0 <= h -> phi 0 = 0 -> psi 0 = 0 ->
  (forall s, 0 <= s <= h -> is_derive phi s (dphi s) /\ is_derive psi s (dpsi s) /\ Rabs (dphi s) <= dpsi s) -> Rabs (phi h) <= psi h.
Proof.
  intros Hh H1 H2 D. assert (G : forall sg, sg = 1 \/ sg = -1 -> sg * phi h <= psi h).
  { intros sg Hs. destruct (MVT_gen (fun s => psi s - sg * phi s) 0 h (fun s => dpsi s - sg * dphi s)) as (c & Hc & E).
    - intros s Hs'. rewrite Rmin_left, Rmax_right in Hs' by lra. destruct (D s ltac:(lra)) as (A & B & _). apply (is_derive_minus psi (fun s => sg * phi s) s (dpsi s) (sg * dphi s)); [exact B|]. apply (is_derive_scal phi s sg (dphi s)). exact A.
    - intros s Hs'. rewrite Rmin_left, Rmax_right in Hs' by lra. destruct (D s ltac:(lra)) as (A & B & _). apply continuity_pt_filterlim. apply (ex_derive_continuous (fun s => psi s - sg * phi s)). eexists.
      apply (is_derive_minus psi (fun s => sg * phi s) s (dpsi s) (sg * dphi s)); [exact B|]. apply (is_derive_scal phi s sg (dphi s)). exact A.
    - rewrite Rmin_left, Rmax_right in Hc by lra. destruct (D c ltac:(lra)) as (_ & _ & B). rewrite H1, H2 in E. assert (0 <= dpsi c - sg * dphi c) by (apply Rabs_le_between in B; destruct Hs as [-> | ->]; lra). nra. }
  pose proof (G 1 (or_introl eq_refl)). pose proof (G (-1) (or_intror eq_refl)). apply Rabs_le. lra.
Qed.
(** error of the central quotient: second order in the step *)
Theorem C83_central_error : forall eps (g g1 g2 g3 : R -> R) M x, 0 < eps ->
  (forall s, Rabs (s - x) <= fd_step Central eps x -> is_derive g s (g1 s) /\ is_derive g1 s (g2 s) /\ is_derive g2 s (g3 s) /\ Rabs (g3 s) <= M) ->
  Rabs (quotient Central eps g x - g1 x) <= M * (fd_step Central eps x * fd_step Central eps x) / 6.
Proof.
  intros eps g g1 g2 g3 M x He D. pose proof (fd_step_pos Central eps x He) as Hp. unfold quotient. cbv zeta. set (h := fd_step Central eps x) in *.
  assert (Dp : forall s, 0 <= s <= h -> Rabs (x + s - x) <= h) by (intros; apply Rabs_le; lra). assert (Dm : forall s, 0 <= s <= h -> Rabs (x - s - x) <= h) by (intros; apply Rabs_le; lra).
  assert (Cp : forall (k k1 : R -> R) s, is_derive k (x + s) (k1 (x + s)) -> is_derive (fun s => k (x + s)) s (k1 (x + s))).
  { intros k k1 s Hk. replace (k1 (x + s)) with (scal 1 (k1 (x + s))) by (change (@eq R (1 * k1 (x + s)) (k1 (x + s))); ring). apply (is_derive_comp k (fun s => x + s)); [exact Hk|]. auto_derive; [exact I|ring]. }
  assert (Cm : forall (k k1 : R -> R) s, is_derive k (x - s) (k1 (x - s)) -> is_derive (fun s => k (x - s)) s (- k1 (x - s))).
  { intros k k1 s Hk. replace (- k1 (x - s)) with (scal (-1) (k1 (x - s))) by (change (@eq R (-1 * k1 (x - s)) (- k1 (x - s))); ring). apply (is_derive_comp k (fun s => x - s)); [exact Hk|]. auto_derive; [exact I|ring]. }
  (* second differences *)
  assert (A2 : forall s, 0 <= s <= h -> Rabs (g2 (x + s) - g2 (x - s)) <= 2 * M * s).
  { intros s Hs. apply (grows (fun s => g2 (x + s) - g2 (x - s)) (fun s => 2 * M * s) (fun s => g3 (x + s) - - g3 (x - s)) (fun _ => 2 * M) s); [lra|rewrite Rplus_0_r, Rminus_0_r; ring|ring|].
    intros r Hr. destruct (D (x + r) (Dp r ltac:(lra))) as (_ & _ & P1 & P2). destruct (D (x - r) (Dm r ltac:(lra))) as (_ & _ & Q1 & Q2). split; [|split].
    - apply (is_derive_minus (fun s => g2 (x + s)) (fun s => g2 (x - s)) r (g3 (x + r)) (- g3 (x - r))); [now apply Cp|now apply Cm].
    - auto_derive; [exact I|ring].
    - apply Rabs_le_between in P2, Q2. apply Rabs_le. lra. }
  assert (A1 : forall s, 0 <= s <= h -> Rabs (g1 (x + s) + g1 (x - s) - 2 * g1 x) <= M * (s * s)).
  { intros s Hs. apply (grows (fun s => g1 (x + s) + g1 (x - s) - 2 * g1 x) (fun s => M * (s * s)) (fun s => g2 (x + s) - g2 (x - s)) (fun s => 2 * M * s) s); [lra|rewrite Rplus_0_r, Rminus_0_r; ring|ring|].
    intros r Hr. destruct (D (x + r) (Dp r ltac:(lra))) as (_ & P1 & _). destruct (D (x - r) (Dm r ltac:(lra))) as (_ & Q1 & _). split; [|split; [|apply A2; lra]].
    - replace (g2 (x + r) - g2 (x - r)) with (minus (plus (g2 (x + r)) (- g2 (x - r))) 0) by (unfold minus, plus, opp; cbn; ring).
      apply (is_derive_minus (fun s => g1 (x + s) + g1 (x - s)) (fun _ => 2 * g1 x)); [|auto_derive; [exact I|ring]]. apply (is_derive_plus (fun s => g1 (x + s)) (fun s => g1 (x - s))); [now apply Cp|now apply Cm].
    - auto_derive; [exact I|ring]. }
  assert (A0 : Rabs (g (x + h) - g (x - h) - 2 * h * g1 x) <= M * (h * h * h) / 3).
  { apply (grows (fun s => g (x + s) - g (x - s) - 2 * s * g1 x) (fun s => M * (s * s * s) / 3) (fun s => g1 (x + s) + g1 (x - s) - 2 * g1 x) (fun s => M * (s * s)) h); [lra|rewrite Rplus_0_r, Rminus_0_r; ring|field|].
    intros r Hr. destruct (D (x + r) (Dp r ltac:(lra))) as (P1 & _). destruct (D (x - r) (Dm r ltac:(lra))) as (Q1 & _). split; [|split; [|apply A1; lra]].
    - replace (g1 (x + r) + g1 (x - r) - 2 * g1 x) with (minus (minus (g1 (x + r)) (- g1 (x - r))) (2 * g1 x)) by (unfold minus, plus, opp; cbn; ring).
      apply (is_derive_minus (fun s => g (x + s) - g (x - s)) (fun s => 2 * s * g1 x)); [|auto_derive; [exact I|ring]]. apply (is_derive_minus (fun s => g (x + s)) (fun s => g (x - s))); [now apply Cp|now apply Cm].
    - auto_derive; [exact I|field]. }
  replace ((g (x + h) - g (x - h)) / (2 * h) - g1 x) with ((g (x + h) - g (x - h) - 2 * h * g1 x) / (2 * h)) by (field; lra).
  unfold Rdiv at 1. rewrite Rabs_mult, (Rabs_pos_eq (/ (2 * h))) by (left; apply Rinv_0_lt_compat; lra).
  apply Rle_trans with (M * (h * h * h) / 3 * / (2 * h)); [apply Rmult_le_compat_r; [left; apply Rinv_0_lt_compat; lra|exact A0]|]. right. field. lra.
Qed.
Print Assumptions C83_central_error.
Theorem C83_forward_error : forall eps (g g1 g2 : R -> R) M x, 0 < eps ->
  (forall s, Rabs (s - x) <= fd_step Forward eps x -> is_derive g s (g1 s) /\ is_derive g1 s (g2 s) /\ Rabs (g2 s) <= M) ->
  Rabs (quotient Forward eps g x - g1 x) <= M * fd_step Forward eps x.
Proof.
  intros eps g g1 g2 M x He D. pose proof (fd_step_pos Forward eps x He) as Hp. destruct (C83_mean_value Forward eps g g1 x He) as (c & Hc & ->); [discriminate|intros s Hs; now apply D|]. set (h := fd_step Forward eps x) in *.
  destruct (MVT_gen g1 x c g2) as (d & Hd & ->).
  - intros s Hs. apply D. apply Rabs_le_between in Hc. unfold Rmin, Rmax in Hs. apply Rabs_le. destruct (Rle_dec x c); lra.
  - intros s Hs. apply continuity_pt_filterlim. apply (ex_derive_continuous g1). eexists. apply D. apply Rabs_le_between in Hc. unfold Rmin, Rmax in Hs. apply Rabs_le. destruct (Rle_dec x c); lra.
  - destruct (D d) as (_ & _ & B); [apply Rabs_le_between in Hc; unfold Rmin, Rmax in Hd; apply Rabs_le; destruct (Rle_dec x c); lra|]. rewrite Rabs_mult. pose proof (Rabs_pos (g2 d)). pose proof (Rabs_pos (c - x)). nra.
Qed.
Print Assumptions C83_forward_error.
(** refuted: parameters do not stay within their bounds; at a bound the derivative depends on values of the model outside *)
Theorem C83_bounds_refuted : forall eps method lo, 0 < eps -> method <> Other -> exists (f f' : list R -> list R),
  (forall p, length (f p) = 1%nat /\ length (f' p) = 1%nat) /\ (forall x, (match method with Central => lo <= x | _ => x <= lo end) -> f [x] = f' [x]) /\
  exists o o' t t', fdjvp method eps f [lo] false [Some 1] = Ok (o, t) /\ fdjvp method eps f' [lo] false [Some 1] = Ok (o', t') /\ t <> t'.
Proof.
  intros eps method lo He Hm. pose proof (fd_step_pos method eps lo He) as Hp. set (h := fd_step method eps lo) in *.
  set (out := fun x => match method with Central => Rltb x lo | _ => Rltb lo x end).
  exists (fun _ => [0]), (fun p => [if out (nth 0 p 0) then 1 else 0]). split; [intros p; split; reflexivity|]. split.
  - intros x Hx. cbn [nth]. unfold out. destruct method; [destruct (Rltb_spec x lo); [lra|reflexivity]|destruct (Rltb_spec lo x); [lra|reflexivity]|contradiction].
  - assert (W : forall F, exists o t, fdjvp method eps F [lo] false [Some 1] = Ok (o, t)). { intros F. unfold fdjvp. destruct method; [| |contradiction]; cbn [nonzero_idx length seq combine filter map fst snd]; eauto. }
    destruct (W (fun _ => [0])) as (o & t & E). destruct (W (fun p => [if out (nth 0 p 0) then 1 else 0])) as (o' & t' & E'). exists o, o', t, t'. split; [exact E|]. split; [exact E'|]. intros Ht.
    apply (C83_quotients _ _ _ _ _ _ _ 1%nat) in E as (_ & _ & E); [|reflexivity|reflexivity]. apply (C83_quotients _ _ _ _ _ _ _ 1%nat) in E' as (_ & _ & E'); [|reflexivity|reflexivity].
    specialize (E O ltac:(lia)). specialize (E' O ltac:(lia)). rewrite Ht in E. rewrite E in E'. cbn [length seq combine map snd fst rsum fold_right nth with_value firstn skipn app] in E'. unfold quotient in E'. cbv zeta in E'. fold h in E'. unfold out in E'.
    destruct method; [| |contradiction].
    + destruct (Rltb_spec (lo + h) lo); [lra|]. destruct (Rltb_spec (lo - h) lo); [|lra]. assert (X : (0 - 0) / (2 * h) = 0) by (field; lra). assert (Y : (0 - 1) / (2 * h) < 0) by (apply Rmult_lt_reg_r with (2 * h); [lra|]; replace ((0 - 1) / (2 * h) * (2 * h)) with (-1) by (field; lra); lra). lra.
    + destruct (Rltb_spec lo (lo + h)); [|lra]. destruct (Rltb_spec lo lo); [lra|]. assert (X : (0 - 0) / h = 0) by (field; lra). assert (Y : 0 < (1 - 0) / h) by (apply Rmult_lt_reg_r with h; [lra|]; replace ((1 - 0) / h * h) with 1 by (field; lra); lra). lra.
Qed.
Print Assumptions C83_bounds_refuted.
(** what is rejected *)
Theorem C83_rejects : forall method eps f params eg tangents e, fdjvp method eps f params eg tangents = Err e <->
  (method = Other /\ e = ValueError) \/ (method <> Other /\ eg = true /\ e = RuntimeError) \/
  (method <> Other /\ eg = false /\ (forall t, ~ In (Some t) tangents) /\ e = TypeError).
Proof.
  intros method eps f params eg tangents e.
  assert (N : nonzero_idx tangents = [] <-> forall t, ~ In (Some t) tangents).
  { split.
    - intros H t Ht. apply (In_nth _ _ None) in Ht as (i & Hi & E). assert (In i (nonzero_idx tangents)) by (apply nonzero_in; eauto). rewrite H in H0. destruct H0.
    - intros H. destruct (nonzero_idx tangents) as [|i l] eqn:E; [reflexivity|]. exfalso. assert (In i (nonzero_idx tangents)) by (rewrite E; now left). apply nonzero_in in H0 as (t & Ht). apply (H t). rewrite <- Ht. apply nth_In. destruct (Nat.lt_ge_cases i (length tangents)) as [L|L]; [exact L|]. rewrite nth_overflow in Ht by exact L. discriminate. }
  unfold fdjvp. destruct method; [destruct eg|destruct eg|].
  1,3: split; [intros H; injection H as <-; right; left; repeat split; discriminate|intros [(? & _)|[(_ & _ & ->)|(_ & ? & _)]]; [discriminate|reflexivity|discriminate]].
  1,2: destruct (nonzero_idx tangents) as [|i l].
  1,3: split; [intros H; injection H as <-; right; right; split; [discriminate|]; split; [reflexivity|]; split; [now apply N|reflexivity]|intros [(? & _)|[(_ & ? & _)|(_ & _ & _ & ->)]]; [discriminate|discriminate|reflexivity]].
  1,2: split; [discriminate|intros [(? & _)|[(_ & ? & _)|(_ & _ & Hn & _)]]; [discriminate|discriminate|apply N in Hn; discriminate]].
  split; [intros H; injection H as <-; left; auto|]. intros [(_ & ->)|[(? & _)|(? & _)]]; [reflexivity|congruence|congruence].
Qed.
Print Assumptions C83_rejects.
(** a power law with two parameters on two bins, derivative with respect to the norm only: exact *)
Example C83_ex : exists o, fdjvp Central 1 (fun p => [2 * nth 0 p 0 * nth 1 p 0; 3 * nth 0 p 0]) [5; 7] false [Some 1; None] = Ok (o, [14; 3]).
Proof.
  destruct (fdjvp Central 1 (fun p => [2 * nth 0 p 0 * nth 1 p 0; 3 * nth 0 p 0]) [5; 7] false [Some 1; None]) as [[o t]|e] eqn:E; [|unfold fdjvp in E; cbn in E; discriminate].
  pose proof (fun H1 H2 => C83_quotients _ _ _ _ _ _ _ 2%nat H1 H2 E) as K. destruct (K (fun p => eq_refl) eq_refl) as (_ & L & Q). clear K. exists o. f_equal. f_equal. destruct t as [|a [|b [|]]]; cbn in L; try lia.
  pose proof (Q 0%nat ltac:(lia)) as Q0. pose proof (Q 1%nat ltac:(lia)) as Q1. cbn [nth length seq combine map snd fst rsum fold_right with_value firstn skipn app] in Q0, Q1.
  pose proof (fd_step_pos Central 1 5 ltac:(lra)) as Hp. unfold quotient in Q0, Q1. cbv zeta in Q0, Q1. rewrite Q0, Q1. f_equal; [field; lra|f_equal; field; lra].
Qed.
