(** C124: versions of jax. *)
From Coq Require Import Ascii String Lia DecimalNat.
From Verif Require Import Base Namespace NamespaceProofs Versions.
From Coq Require Import List.
Import ListNotations.
Open Scope list_scope.
Open Scope nat_scope.

Lemma digit_spec c d : digit c = Some d <-> d < 10 /\ nat_of_ascii c = 48 + d.
Proof.
  unfold digit. destruct (Nat.leb_spec 48 (nat_of_ascii c)), (Nat.leb_spec (nat_of_ascii c) 57); cbn [andb]; split; intros E; try discriminate; try (exfalso; lia).
  - injection E as <-. lia.
  - f_equal. lia.
Qed.
Lemma digit_none c : digit c = None <-> ~ is_digit c.
Proof.
  split.
  - intros E H. unfold is_digit in H. cbn in H. repeat (destruct H as [<-|H]; [discriminate E|]). destruct H.
  - intros H. destruct (digit c) as [d|] eqn:E; [|reflexivity]. exfalso. apply H. apply digit_spec in E as (L & E).
    rewrite <- (ascii_nat_embedding c), E. unfold is_digit. do 10 (destruct d as [|d]; [cbn; tauto|]). lia.
Qed.
(** a text that does not continue a number *)
Definition stops (t : str) : Prop := match t with [] => True | c :: _ => ~ is_digit c end.
Lemma numbers_uint u : forall a rest, stops rest -> numbers (Some a) (uint_str u ++ rest) = Nat.of_uint_acc u a :: numbers None rest.
Proof.
  assert (T : forall a, Nat.tail_mul 10 a = 10 * a) by (intros a; apply Nat.tail_mul_spec).
  assert (G : forall c d a r, digit c = Some d -> numbers (Some a) (c :: r) = numbers (Some (10 * a + d)) r) by (intros c d a r E; cbn [numbers]; now rewrite E).
  induction u as [|u IH|u IH|u IH|u IH|u IH|u IH|u IH|u IH|u IH|u IH]; intros a rest S.
  { cbn [uint_str app]. destruct rest as [|c rest]; [reflexivity|]. cbn [numbers Nat.of_uint_acc]. cbn in S. apply digit_none in S. now rewrite S. }
  all: cbn [uint_str app]; erewrite G by reflexivity; rewrite IH by exact S; cbn [Nat.of_uint_acc]; rewrite ?T; f_equal; f_equal; match goal with |- _ + ?z = _ => let v := eval vm_compute in z in change z with v end; lia.
Qed.
Lemma uint_first u rest : u <> Decimal.Nil -> numbers None (uint_str u ++ rest) = numbers (Some 0) (uint_str u ++ rest).
Proof. destruct u; [congruence|intros _; reflexivity..]. Qed.
Lemma to_uint_some n : Nat.to_uint n <> Decimal.Nil.
Proof.
  intros E. pose proof (Unsigned.to_of (Nat.to_uint n)) as H. rewrite Unsigned.of_to in H. rewrite E in H. cbn in H. discriminate.
Qed.
Lemma numbers_nat n rest : stops rest -> numbers None (nat_str n ++ rest) = n :: numbers None rest.
Proof.
  intros S. unfold nat_str. rewrite uint_first by apply to_uint_some. rewrite numbers_uint by exact S. f_equal. exact (Unsigned.of_to n).
Qed.
Lemma numbers_skip t rest : Forall (fun c => ~ is_digit c) t -> numbers None (t ++ rest) = numbers None rest.
Proof. induction 1 as [|c t H _ IH]; [reflexivity|]. cbn [app numbers]. apply digit_none in H. now rewrite H. Qed.

(** a text of numbers, each followed by a text without digits: [(n1, s1), (n2, s2), ...] is n1 s1 n2 s2 ... *)
Fixpoint written (l : list (nat * str)) : str := match l with [] => [] | (n, s) :: r => nat_str n ++ s ++ written r end.
Theorem C124_numbers : forall before l, Forall (fun c => ~ is_digit c) before ->
  Forall (fun ns => Forall (fun c => ~ is_digit c) (snd ns)) l -> (forall a n s b, l = a ++ (n, s) :: b -> b <> [] -> s <> []) ->
  parse_version (before ++ written l) = map fst l.
Proof.
  intros before l B F N. unfold parse_version. rewrite numbers_skip by exact B. clear B. induction F as [|[n s] l Fs F IH]; [reflexivity|]. cbn [written map fst]. cbn [snd] in Fs.
  rewrite numbers_nat.
  - rewrite numbers_skip by exact Fs. f_equal. apply IH. intros a m t b E Nb. apply (N ((n, s) :: a) m t b); [now rewrite E|exact Nb].
  - destruct s as [|c s]; [|inversion Fs; assumption]. destruct l as [|x l]; [exact I|]. exfalso. apply (N [] n [] (x :: l) eq_refl); [discriminate|reflexivity].
Qed.
Print Assumptions C124_numbers.

(** tuples are compared entry by entry, the first that differs decides; a tuple that ends is smaller *)
Theorem C124_order : forall a b, tuple_ge a b = true <->
  (exists rest, a = b ++ rest) \/ (exists common x y ra rb, a = common ++ x :: ra /\ b = common ++ y :: rb /\ y < x).
Proof.
  induction a as [|x a IH]; intros [|y b].
  - split; [intros _; left; now exists []|reflexivity].
  - split; [discriminate|]. intros [(r & E)|(c & x & y' & ra & rb & E & _)]; [discriminate|destruct c; discriminate].
  - split; [intros _; left; now exists (x :: a)|reflexivity].
  - cbn [tuple_ge]. destruct (Nat.eqb_spec x y) as [->|N].
    + rewrite IH. split.
      * intros [(r & ->)|(c & u & v & ra & rb & -> & -> & L)]; [left; now exists r|right; exists (y :: c), u, v, ra, rb; auto].
      * intros [(r & E)|(c & u & v & ra & rb & Ea & Eb & L)]; [left; injection E as ->; now exists r|].
        destruct c as [|z c]; [injection Ea as -> _; injection Eb as -> _; lia|]. injection Ea as _ ->. injection Eb as _ ->. right. now exists c, u, v, ra, rb.
    + destruct (Nat.ltb_spec y x) as [L|L]; split; try discriminate; try reflexivity.
      * intros _. right. exists [], x, y, a, b. auto.
      * intros [(r & E)|(c & u & v & ra & rb & Ea & Eb & Lv)]; [injection E; congruence|].
        destruct c as [|z c]; [injection Ea as -> _; injection Eb as -> _; lia|]. injection Ea as -> _. injection Eb as -> _. congruence.
Qed.
Print Assumptions C124_order.

(** released versions a.b.c, with anything after that does not start with a digit: the new keyword is used from 0.6.0 on *)
Definition version3 (a b c : nat) (rest : str) : str := nat_str a ++ s2l "." ++ nat_str b ++ s2l "." ++ nat_str c ++ rest.
Lemma dot_stops t : stops (s2l "." ++ t).
Proof. cbn. unfold is_digit. cbn. intuition discriminate. Qed.
Lemma numbers_dot t : numbers None (s2l "." ++ t) = numbers None t.
Proof. reflexivity. Qed.
Lemma ge_nil a : tuple_ge a [] = true.
Proof. destruct a; reflexivity. Qed.
Theorem C124_keyword : forall installed vec a b c rest, stops rest ->
  (callback_kwargs installed vec (Some (version3 a b c rest)) = VmapSequential <-> 0 < a \/ 6 <= b) /\
  (callback_kwargs installed vec (Some (version3 a b c rest)) = Vectorized vec <-> a = 0 /\ b < 6).
Proof.
  intros installed vec a b c rest St. unfold callback_kwargs, version3, parse_version.
  rewrite numbers_nat by apply dot_stops. rewrite numbers_dot. rewrite numbers_nat by apply dot_stops. rewrite numbers_dot. rewrite numbers_nat by exact St.
  cbn [tuple_ge]. destruct a as [|a]; cbn [Nat.eqb Nat.ltb Nat.leb].
  - destruct (Nat.eqb_spec b 6) as [->|N].
    + destruct c as [|c]; cbn; rewrite ?ge_nil; split; split; intros; try reflexivity; try discriminate; try lia.
    + change (match b with S (S (S (S (S (S (S _)))))) => true | _ => false end) with (6 <? b). destruct (Nat.ltb_spec 6 b); split; split; intros; try reflexivity; try discriminate; try lia.
  - split; split; intros; try reflexivity; try discriminate; try lia.
Qed.
Print Assumptions C124_keyword.
Theorem C124_installed : forall installed vec, callback_kwargs installed vec None = callback_kwargs installed vec (Some installed).
Proof. reflexivity. Qed.
Print Assumptions C124_installed.

(** a version of two numbers is taken for an older one than the same with a zero at its end *)
Theorem C124_short_refuted : forall installed vec, callback_kwargs installed vec (Some (s2l "0.6")) = Vectorized vec /\
  callback_kwargs installed vec (Some (s2l "0.6.0")) = VmapSequential.
Proof. intros. split; reflexivity. Qed.
Print Assumptions C124_short_refuted.
(** so is a release candidate for the release *)
Theorem C124_candidate_refuted : forall installed vec, callback_kwargs installed vec (Some (s2l "0.6.0rc1")) = VmapSequential.
Proof. intros. reflexivity. Qed.
Print Assumptions C124_candidate_refuted.
Example C124_ex : parse_version (s2l "v0.10.2.dev7+cpu") = [0; 10; 2; 7].
Proof. reflexivity. Qed.
