(** Lemmas on quantiles and covariance matrices. *)
From Coq Require Import Ascii String Permutation Sorted.
From Verif Require Import RBase Data DataProofs Namespace NamespaceProofs FitInput HelperData HelperNames HelperNamesProofs Batch Results ResultsProofs Summary.
From Coq Require Import List.
Open Scope list_scope.

(** ** sorting *)
Lemma insR_perm x l : Permutation (x :: l) (insR x l).
Proof. induction l as [|y l IH]; cbn; [reflexivity|]. destruct (Rleb x y); [reflexivity|]. rewrite perm_swap. now apply perm_skip. Qed.
Lemma sortR_perm l : Permutation l (sortR l).
Proof. induction l as [|x l IH]; cbn; [constructor|]. rewrite <- insR_perm. now apply perm_skip. Qed.
Lemma sortR_length l : length (sortR l) = length l.
Proof. apply Permutation_length, Permutation_sym, sortR_perm. Qed.
Lemma insR_sorted x l : StronglySorted Rle l -> StronglySorted Rle (insR x l).
Proof.
  induction l as [|y l IH]; intros S; cbn; [repeat constructor|]. inversion S as [|? ? S' F]; subst. destruct (Rleb_spec x y) as [L|L].
  - constructor; [exact S|]. constructor; [exact L|]. eapply Forall_impl; [|exact F]. intros z Hz. lra.
  - constructor; [now apply IH|]. eapply Permutation_Forall; [apply insR_perm|]. constructor; [lra|exact F].
Qed.
Lemma sortR_sorted l : StronglySorted Rle (sortR l).
Proof. induction l as [|x l IH]; cbn; [constructor|]. now apply insR_sorted. Qed.
Lemma sorted_nth l : StronglySorted Rle l -> forall i j, (i <= j < length l)%nat -> nth i l 0 <= nth j l 0.
Proof.
  induction l as [|x l IH]; intros S i j H; [cbn in H; lia|]. inversion S as [|? ? S' F]; subst. destruct i as [|i], j as [|j]; cbn [nth]; [lra| |lia|].
  - rewrite Forall_forall in F. apply F, nth_In. cbn in H. lia.
  - apply IH; [exact S'|]. cbn in H. lia.
Qed.

(** ** the interpolated order statistics *)
Definition interp (s : list R) (h : R) : R :=
  let j := Z.to_nat (Int_part h) in
  let a := nth j s 0 in let b := nth (Nat.min (S j) (length s - 1)) s 0 in a + (b - a) * (h - IZR (Int_part h)).
Lemma Int_part_bound h : IZR (Int_part h) <= h < IZR (Int_part h) + 1.
Proof. destruct (base_Int_part h). lra. Qed.
Lemma Int_part_mono h h' : h <= h' -> (Int_part h <= Int_part h')%Z.
Proof.
  intros H. pose proof (Int_part_bound h). pose proof (Int_part_bound h'). assert (L : IZR (Int_part h) < IZR (Int_part h' + 1)) by (rewrite plus_IZR; lra).
  apply lt_IZR in L. lia.
Qed.
Lemma Int_part_pos h : 0 <= h -> (0 <= Int_part h)%Z.
Proof. intros H. pose proof (Int_part_bound h). assert (L : IZR 0 < IZR (Int_part h + 1)) by (rewrite plus_IZR; cbn; lra). apply lt_IZR in L. lia. Qed.
Lemma Int_part_le_nat h n : h <= INR n -> (Int_part h <= Z.of_nat n)%Z.
Proof. intros H. pose proof (Int_part_bound h). rewrite INR_IZR_INZ in H. apply le_IZR. lra. Qed.
Section Interp.
Variables (s : list R).
Hypothesis S0 : StronglySorted Rle s.
Hypothesis N0 : s <> [].
Let n := length s.
Lemma n_pos : (0 < n)%nat. Proof. unfold n. destruct s; [easy|cbn; lia]. Qed.
Lemma interp_between h : 0 <= h <= INR (n - 1) -> let j := Z.to_nat (Int_part h) in
  nth j s 0 <= interp s h <= nth (Nat.min (S j) (n - 1)) s 0.
Proof.
  intros H j. unfold interp. fold j. fold n. pose proof n_pos. pose proof (Int_part_bound h) as B. pose proof (Int_part_pos h ltac:(lra)). pose proof (Int_part_le_nat h (n - 1) ltac:(lra)).
  assert (L : nth j s 0 <= nth (Nat.min (S j) (n - 1)) s 0) by (apply sorted_nth; [exact S0|fold n; unfold j; lia]).
  set (a := nth j s 0) in *. set (b := nth (Nat.min (S j) (n - 1)) s 0) in *. nra.
Qed.
Lemma interp_mono h h' : 0 <= h -> h <= h' -> h' <= INR (n - 1) -> interp s h <= interp s h'.
Proof.
  intros A B C. pose proof n_pos. pose proof (Int_part_mono h h' B) as M. pose proof (Int_part_pos h A). pose proof (Int_part_le_nat h' (n - 1) C).
  destruct (Z.eq_dec (Int_part h) (Int_part h')) as [E|E].
  - unfold interp. rewrite <- E. fold n. set (j := Z.to_nat (Int_part h)) in *.
    assert (L : nth j s 0 <= nth (Nat.min (S j) (n - 1)) s 0) by (apply sorted_nth; [exact S0|fold n; unfold j; lia]). nra.
  - pose proof (interp_between h ltac:(lra)) as [_ U]. pose proof (interp_between h' ltac:(lra)) as [D _]. cbn zeta in *.
    eapply Rle_trans; [exact U|]. eapply Rle_trans; [|exact D]. apply sorted_nth; [exact S0|]. fold n. lia.
Qed.
End Interp.
Lemma quantile_ok v q x : quantile v q = Ok x <-> v <> [] /\ 0 <= q <= 1 /\ x = interp (sortR v) (q * INR (length v - 1)).
Proof.
  unfold quantile, interp. rewrite sortR_length. destruct (Nat.eqb_spec (length v) 0) as [E|E].
  - split; [discriminate|]. intros [H _]. destruct v; [easy|discriminate].
  - destruct (Rltb_spec q 0) as [L|L]; cbn [orb]; [split; [discriminate|lra]|]. destruct (Rltb_spec 1 q) as [L'|L']; [split; [discriminate|lra]|].
    split; [intros H; injection H as <-; split; [destruct v; [easy|discriminate]|]; split; [lra|reflexivity]|]. intros (_ & _ & ->). reflexivity.
Qed.
Lemma quantile_mono v q q' x x' : quantile v q = Ok x -> quantile v q' = Ok x' -> q <= q' -> x <= x'.
Proof.
  intros H H' L. apply quantile_ok in H as (Nv & Q & ->). apply quantile_ok in H' as (_ & Q' & ->).
  pose proof (pos_INR (length v - 1)). apply interp_mono; [apply sortR_sorted| |nra|nra|rewrite sortR_length; nra].
  intros E. apply (f_equal (@length R)) in E. rewrite sortR_length in E. destruct v; [easy|discriminate].
Qed.
Lemma quantile_range v q x : quantile v q = Ok x -> (exists a, In a v /\ a <= x) /\ exists b, In b v /\ x <= b.
Proof.
  intros H. apply quantile_ok in H as (Nv & Q & ->). assert (Ns : sortR v <> []).
  { intros E. apply (f_equal (@length R)) in E. rewrite sortR_length in E. destruct v; [easy|discriminate]. }
  pose proof (pos_INR (length v - 1)) as P. assert (Hh : 0 <= q * INR (length v - 1) <= INR (length (sortR v) - 1)) by (rewrite sortR_length; nra).
  pose proof (interp_between (sortR v) (sortR_sorted v) Ns _ Hh) as [A B]. cbn zeta in *. set (h := q * INR (length v - 1)) in *.
  assert (Hp : (0 < length (sortR v))%nat) by (destruct (sortR v); [easy|cbn; lia]).
  pose proof (Int_part_pos h ltac:(lra)). pose proof (Int_part_le_nat h _ (proj2 Hh)).
  split; [exists (nth (Z.to_nat (Int_part h)) (sortR v) 0)|exists (nth (Nat.min (S (Z.to_nat (Int_part h))) (length (sortR v) - 1)) (sortR v) 0)];
    (split; [eapply Permutation_in; [apply Permutation_sym, sortR_perm|]; apply nth_In; lia|assumption]).
Qed.
Lemma quantile_defined v q : v <> [] -> 0 <= q <= 1 -> exists x, quantile v q = Ok x.
Proof. intros N Q. eexists. apply quantile_ok. split; [exact N|]. split; [exact Q|reflexivity]. Qed.
(** how many values lie on either side of a quantile *)
Lemma filter_perm {A} (f : A -> bool) l l' : Permutation l l' -> length (filter f l) = length (filter f l').
Proof. induction 1; cbn; repeat match goal with |- context [if f ?z then _ else _] => destruct (f z) end; cbn; congruence. Qed.
Lemma filter_ge {A} (f : A -> bool) l1 l2 : Forall (fun x => f x = true) l1 -> (length l1 <= length (filter f (l1 ++ l2)))%nat.
Proof. intros F. induction F as [|x l H F IH]; cbn [app filter length]; [lia|]. rewrite H. cbn [length]. lia. Qed.
Lemma filter_ge_r {A} (f : A -> bool) l1 l2 : Forall (fun x => f x = true) l2 -> (length l2 <= length (filter f (l1 ++ l2)))%nat.
Proof. intros F. rewrite filter_app, app_length. pose proof (filter_ge f l2 [] F). rewrite app_nil_r in *. lia. Qed.
Lemma sorted_firstn s x k : StronglySorted Rle s -> (k < length s)%nat -> nth k s 0 <= x -> Forall (fun y => Rleb y x = true) (firstn (S k) s).
Proof.
  intros S K H. apply Forall_forall. intros y Hy. apply (In_nth _ _ 0) in Hy as (i & Hi & <-). rewrite firstn_length in Hi.
  assert (E : nth i (firstn (Datatypes.S k) s) 0 = nth i s 0).
  { rewrite <- (firstn_skipn (Datatypes.S k) s) at 2. rewrite app_nth1; [reflexivity|rewrite firstn_length; lia]. }
  rewrite E. pose proof (sorted_nth s S i k ltac:(lia)). destruct (Rleb_spec (nth i s 0) x); [reflexivity|lra].
Qed.
Lemma sorted_skipn s x k : StronglySorted Rle s -> (k < length s)%nat -> x <= nth k s 0 -> Forall (fun y => Rleb x y = true) (skipn k s).
Proof.
  intros S K H. apply Forall_forall. intros y Hy. apply (In_nth _ _ 0) in Hy as (i & Hi & <-). rewrite skipn_length in Hi.
  assert (E : nth i (skipn k s) 0 = nth (k + i) s 0).
  { rewrite <- (firstn_skipn k s) at 2. rewrite app_nth2; [|rewrite firstn_length; lia]. f_equal. rewrite firstn_length. lia. }
  rewrite E. pose proof (sorted_nth s S k (k + i) ltac:(lia)). destruct (Rleb_spec x (nth (k + i) s 0)); [reflexivity|lra].
Qed.
Lemma count_below x v : count (fun y => y <= x) v (length (filter (fun y => Rleb y x) v)).
Proof. induction v as [|y v IH]; cbn [filter]; [constructor|]. destruct (Rleb_spec y x); cbn [length]; [now constructor|constructor; [lra|exact IH]]. Qed.
Lemma count_above x v : count (fun y => x <= y) v (length (filter (fun y => Rleb x y) v)).
Proof. induction v as [|y v IH]; cbn [filter]; [constructor|]. destruct (Rleb_spec x y); cbn [length]; [now constructor|constructor; [lra|exact IH]]. Qed.
Lemma quantile_below v q x k : quantile v q = Ok x -> count (fun y => y <= x) v k -> q * INR (length v - 1) < INR k.
Proof.
  intros H C. apply quantile_ok in H as (Nv & Q & ->). set (h := q * INR (length v - 1)). set (x := interp (sortR v) h) in *.
  assert (Ns : sortR v <> []) by (intros E; apply (f_equal (@length R)) in E; rewrite sortR_length in E; destruct v; [easy|discriminate]).
  pose proof (pos_INR (length v - 1)) as P. assert (Hh : 0 <= h <= INR (length (sortR v) - 1)) by (rewrite sortR_length; unfold h; nra).
  pose proof (interp_between (sortR v) (sortR_sorted v) Ns _ Hh) as [A _]. cbn zeta in A. fold x in A.
  pose proof (Int_part_bound h) as B. pose proof (Int_part_pos h ltac:(lra)) as I0. pose proof (Int_part_le_nat h _ (proj2 Hh)) as I1.
  assert (Hp : (0 < length (sortR v))%nat) by (destruct (sortR v); [easy|cbn; lia]).
  pose proof (count_below x v) as C'.
  rewrite (count_fun _ _ _ _ C C'). rewrite (filter_perm _ _ _ (sortR_perm v)).
  set (j := Z.to_nat (Int_part h)) in *. pose proof (sorted_firstn (sortR v) x j (sortR_sorted v) ltac:(unfold j; lia) A) as F.
  pose proof (filter_ge _ _ (skipn (S j) (sortR v)) F) as G. rewrite firstn_skipn, firstn_length in G. apply Rlt_le_trans with (INR (S j)); [|apply le_INR; lia].
  rewrite S_INR. unfold j. rewrite INR_IZR_INZ, Z2Nat.id by exact I0. lra.
Qed.
Lemma quantile_above v q x k : quantile v q = Ok x -> count (fun y => x <= y) v k -> (1 - q) * INR (length v - 1) < INR k.
Proof.
  intros H C. apply quantile_ok in H as (Nv & Q & ->). set (h := q * INR (length v - 1)). set (x := interp (sortR v) h) in *.
  assert (Ns : sortR v <> []) by (intros E; apply (f_equal (@length R)) in E; rewrite sortR_length in E; destruct v; [easy|discriminate]).
  pose proof (pos_INR (length v - 1)) as P. assert (Hh : 0 <= h <= INR (length (sortR v) - 1)) by (rewrite sortR_length; unfold h; nra).
  pose proof (interp_between (sortR v) (sortR_sorted v) Ns _ Hh) as [_ A]. cbn zeta in A. fold x in A.
  pose proof (Int_part_bound h) as B. pose proof (Int_part_pos h ltac:(lra)) as I0. pose proof (Int_part_le_nat h _ (proj2 Hh)) as I1.
  assert (Hp : (0 < length (sortR v))%nat) by (destruct (sortR v); [easy|cbn; lia]).
  pose proof (count_above x v) as C'.
  rewrite (count_fun _ _ _ _ C C'). rewrite (filter_perm _ _ _ (sortR_perm v)).
  set (j := Z.to_nat (Int_part h)) in *. assert (Ej : INR j = IZR (Int_part h)) by (unfold j; rewrite INR_IZR_INZ, Z2Nat.id by exact I0; reflexivity).
  assert (K : exists m, (m < length (sortR v))%nat /\ x <= nth m (sortR v) 0 /\ INR m < h + 1).
  { destruct (Req_dec h (IZR (Int_part h))) as [E|E].
    - exists j. split; [unfold j; lia|]. split; [|lra]. unfold x, interp. fold j. set (c := _ - nth j (sortR v) 0). replace (h - IZR (Int_part h)) with 0 by lra. lra.
    - exists (S j). assert (Lh : IZR (Int_part h) < h) by (destruct (Rle_lt_or_eq_dec _ _ (proj1 B)); [assumption|congruence]). assert (L : INR j < INR (length (sortR v) - 1)) by lra. apply INR_lt in L. split; [lia|]. rewrite Nat.min_l in A by lia. split; [exact A|]. rewrite S_INR. lra. }
  destruct K as (m & Lm & Hm & Bm). pose proof (sorted_skipn (sortR v) x m (sortR_sorted v) Lm Hm) as F.
  pose proof (filter_ge_r _ (firstn m (sortR v)) _ F) as G. rewrite firstn_skipn, skipn_length in G. apply Rlt_le_trans with (INR (length (sortR v) - m)); [|apply le_INR; exact G].
  rewrite (minus_INR (length (sortR v)) m) by apply Nat.lt_le_incl, Lm. rewrite sortR_length. rewrite sortR_length in Hp. assert (E1 : INR (length v - 1) = INR (length v) - 1) by (rewrite minus_INR by exact Hp; reflexivity). fold h in Bm. assert (Eh : h = q * INR (length v - 1)) by reflexivity. rewrite E1 in *. lra.
Qed.

(** ** matrices *)
Lemma dot_sum a b n : length a = n -> length b = n -> dot a b = rsum (map (fun i => nth i a 0 * nth i b 0) (seq 0 n)).
Proof.
  revert b n. unfold dot. induction a as [|x a IH]; intros b n La Lb; cbn in La; subst n; destruct b as [|y b]; try discriminate; [reflexivity|].
  change (zip2 Rmult (x :: a) (y :: b)) with (x * y :: zip2 Rmult a b). cbn [seq map nth]. rewrite <- seq_shift, map_map.
  cbn [nth]. cbn in Lb. change (rsum (x * y :: ?l)) with (x * y + rsum l). unfold rsum at 1 2. cbn [fold_right]. f_equal. apply (IH b (length a)); [reflexivity|lia].
Qed.
Lemma rsum_swap {A B} (f : A -> B -> R) la lb : rsum (map (fun a => rsum (map (f a) lb)) la) = rsum (map (fun b => rsum (map (fun a => f a b) la)) lb).
Proof.
  induction la as [|a la IH]; cbn [map].
  - symmetry. apply rsum_zeros. reflexivity.
  - change (rsum (rsum (map (f a) lb) :: map (fun a0 => rsum (map (f a0) lb)) la)) with (rsum (map (f a) lb) + rsum (map (fun a0 => rsum (map (f a0) lb)) la)).
    rewrite IH, <- rsum_plus. reflexivity.
Qed.
(** rows picked by a mask of names *)
Lemma index_app_r l1 l2 a : ~ In a l1 -> index_of (l1 ++ l2) a = option_map (fun i => (length l1 + i)%nat) (index_of l2 a).
Proof.
  induction l1 as [|x l1 IH]; intros H; [cbn; destruct (index_of l2 a); reflexivity|]. cbn [List.app index_of length Nat.add].
  destruct (str_eqb_spec a x) as [->|N]; [exfalso; apply H; now left|]. rewrite IH by (intros X; apply H; now right). destruct (index_of l2 a); reflexivity.
Qed.
Lemma keep_nth {A} (mask : list bool) (names sel : list str) (rows : list A) (d : A) :
  length mask = length names -> length rows = length names -> NoDup names ->
  sel = keep mask names ->
  forall a i, index_of sel a = Some i -> exists k, index_of names a = Some k /\ nth i (keep mask rows) d = nth k rows d /\ (k < length names)%nat.
Proof.
  revert names sel rows. induction mask as [|b mask IH]; intros [|x names] sel [|r rows] Lm Lr Nd Es a i Hi; try discriminate.
  - subst sel. discriminate.
  - inversion Nd as [|? ? Nx Nd']; subst. cbn in Lm, Lr. unfold keep in *. cbn [combine filter fst map snd] in *. destruct b; cbn [map snd index_of] in *.
    + destruct (str_eqb_spec a x) as [E|E].
      * injection Hi as <-. exists 0%nat. cbn. repeat split; lia.
      * destruct (index_of (map snd (filter fst (combine mask names))) a) as [i'|] eqn:Ei; [|discriminate]. injection Hi as <-.
        destruct (IH names _ rows ltac:(lia) ltac:(lia) Nd' eq_refl a i' Ei) as (k & Ek & En & Lk). exists (S k). rewrite Ek. cbn [option_map nth length]. repeat split; [exact En|lia].
    + destruct (IH names _ rows ltac:(lia) ltac:(lia) Nd' eq_refl a i Hi) as (k & Ek & En & Lk). exists (S k).
      destruct (str_eqb_spec a x) as [E|E].
      * exfalso. subst a. apply Nx. clear - Ek. revert k Ek. induction names as [|y names IH]; intros k Ek; [discriminate|]. cbn in Ek. destruct (str_eqb_spec x y) as [->|N]; [now left|].
        destruct (index_of names x) as [k'|]; [|discriminate]. right. now apply (IH k').
      * rewrite Ek. cbn [option_map nth length]. repeat split; [exact En|lia].
Qed.
Lemma keep_filter (f : str -> bool) names : keep (map f names) names = filter f names.
Proof. unfold keep. induction names as [|x l IH]; [reflexivity|]. cbn. destruct (f x); cbn; now rewrite IH. Qed.
Lemma keep_app {A} m1 m2 (l1 l2 : list A) : length m1 = length l1 -> keep (m1 ++ m2) (l1 ++ l2) = keep m1 l1 ++ keep m2 l2.
Proof.
  revert l1. unfold keep. induction m1 as [|b m1 IH]; intros [|x l1] L; try discriminate; [reflexivity|]. cbn [List.app combine filter fst].
  destruct b; cbn [map snd List.app]; [f_equal|]; apply IH; now injection L.
Qed.
Lemma keep_all {A B} (l : list A) (r : list B) : length l = length r -> keep (map (fun _ => true) r) l = l.
Proof. revert r. unfold keep. induction l as [|x l IH]; intros [|y r] L; try discriminate; [reflexivity|]. cbn. f_equal. apply IH. now injection L. Qed.
Lemma keep_length {A B} (m : list bool) (l : list A) (r : list B) : length l = length r -> length (keep m l) = length (keep m r).
Proof.
  revert l r. unfold keep. induction m as [|b m IH]; intros [|x l] [|y r] L; try discriminate; try reflexivity. cbn. injection L as L.
  destruct b; cbn; rewrite (IH l r L); reflexivity.
Qed.
