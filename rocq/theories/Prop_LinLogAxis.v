(** C122: the two halves of the linear-logarithmic axis. *)
From Verif Require Import RBase LinLog Prop_LinLog LinLogAxis.
From Coq Require Import List ZArith.
Import ListNotations.
Open Scope R_scope.

(** the two halves cover the axis and meet at the threshold; an axis that lies on one side is given whole to both *)
Theorem C122_halves : forall thresh vmin vmax,
  let lin := half_interval thresh false (vmin, vmax) in let log := half_interval thresh true (vmin, vmax) in
  (vmin < thresh < vmax ->
     fst lin = vmin /\ snd lin = thresh /\ fst log = thresh /\ snd log = vmax /\
     forall x, vmin <= x <= vmax -> (x <= thresh <-> fst lin <= x <= snd lin) /\ (thresh <= x <-> fst log <= x <= snd log)) /\
  (~ vmin < thresh < vmax -> lin = (vmin, vmax) /\ log = (vmin, vmax)).
Proof.
  intros th a b lin log. unfold lin, log, half_interval. destruct (Rltb_spec a th) as [X|X], (Rltb_spec th b) as [Y|Y]; cbn; split; intros H;
    try (exfalso; lra); try (split; reflexivity).
  repeat (split; [reflexivity|]). intros x Hx. split; split; intros G; try split; try lra.
Qed.
Print Assumptions C122_halves.

(** Python's rounding *)
Definition rounds (r : R) (k : Z) : Prop :=
  Rabs (IZR k - r) <= 1 / 2 /\ (Rabs (IZR k - r) = 1 / 2 -> Z.even k = true).
Theorem C122_round : forall r k, py_round r = k <-> rounds r k.
Proof.
  assert (S : forall r, rounds r (py_round r)).
  { intros r. unfold rounds, py_round. pose proof (base_Int_part r) as (A & B). set (k := Int_part r) in *.
    destruct (Rltb_spec (r - IZR k) (1 / 2)) as [L|L].
    - unfold Rabs. destruct (Rcase_abs (IZR k - r)); split; try lra; intros F; exfalso; lra.
    - destruct (Rltb_spec (1 / 2) (r - IZR k)) as [M|M].
      + rewrite plus_IZR. unfold Rabs. destruct (Rcase_abs (IZR k + 1 - r)); split; try lra; intros F; exfalso; lra.
      + destruct (Z.even k) eqn:Ev.
        * split; [|intros _; exact Ev]. unfold Rabs. destruct (Rcase_abs (IZR k - r)); lra.
        * split; [|intros _; rewrite Z.even_add, Ev; reflexivity]. rewrite plus_IZR. unfold Rabs. destruct (Rcase_abs (IZR k + 1 - r)); lra. }
  intros r k. split; [intros <-; apply S|]. intros (A & B). destruct (S r) as (C & D). set (m := py_round r) in *.
  assert (T : (m = k \/ m = k + 1 \/ k = m + 1)%Z).
  { assert (X : Rabs (IZR m - IZR k) <= 1). { replace (IZR m - IZR k) with ((IZR m - r) - (IZR k - r)) by ring. eapply Rle_trans; [apply Rabs_triang|]. rewrite Rabs_Ropp. lra. }
    rewrite <- minus_IZR, <- abs_IZR in X. apply le_IZR in X. lia. }
  destruct T as [T|[T|T]]; [exact T| |]; exfalso; rewrite T in *; rewrite plus_IZR in *.
  - assert (Z.even (k + 1) = true /\ Z.even k = true) as (P & Q).
    { split; [apply D|apply B]; unfold Rabs in *; destruct (Rcase_abs (IZR k - r)), (Rcase_abs (IZR k + 1 - r)); lra. }
    rewrite Z.even_add, Q in P. discriminate.
  - assert (Z.even (m + 1) = true /\ Z.even m = true) as (P & Q).
    { split; [apply B|apply D]; unfold Rabs in *; destruct (Rcase_abs (IZR m - r)), (Rcase_abs (IZR m + 1 - r)); lra. }
    rewrite Z.even_add, Q in P. discriminate.
Qed.
Print Assumptions C122_round.

Lemma forward_thresh t b th sc : made t b th sc -> forward t th = th * adj t.
Proof. intros M. destruct (made_inv _ _ _ _ M) as (E & _). unfold forward. rewrite E at 1. cbn [l_thresh]. destruct (Rltb_spec th th) as [F|_]; [lra|reflexivity]. Qed.
Lemma forward_lt t b th sc x y : made t b th sc -> (forward t x < forward t y <-> x < y).
Proof.
  intros M. split; [|now apply (C78_increasing t b th sc)]. intros H. destruct (Rtotal_order x y) as [X|[X|X]]; [exact X|rewrite X in H; lra|].
  pose proof (C78_increasing t b th sc _ _ M X). lra.
Qed.

(** each half is given its share of the ticks, the part of the drawn length that it takes, rounded; the decision is the same
    as that for the intervals *)
Definition lin_share (t : linlog) (thresh vmin vmax : R) : R := (forward t thresh - forward t vmin) / (forward t vmax - forward t vmin).
Theorem C122_tick_space : forall t base thresh scale vmin vmax n, made t base thresh scale ->
  (vmin < thresh < vmax ->
     0 < lin_share t thresh vmin vmax < 1 /\
     rounds (IZR n * lin_share t thresh vmin vmax) (tick_space t false (vmin, vmax) n) /\
     rounds (IZR n * (1 - lin_share t thresh vmin vmax)) (tick_space t true (vmin, vmax) n)) /\
  (~ vmin < thresh < vmax -> forall b, tick_space t b (vmin, vmax) n = n).
Proof.
  intros t b th sc a c n M. pose proof (forward_thresh _ _ _ _ M) as FT. pose proof (made_inv _ _ _ _ M) as (E & _). assert (ET : l_thresh t = th) by (rewrite E; reflexivity).
  assert (RN : py_round (IZR n) = n). { apply C122_round. unfold rounds. replace (IZR n - IZR n) with 0 by ring. rewrite Rabs_R0. split; [lra|intros; exfalso; lra]. }
  assert (L1 := forward_lt t b th sc a th M). assert (L2 := forward_lt t b th sc th c M). unfold tick_space. cbn [fst snd]. rewrite ET, <- FT. split.
  - intros (A & C). apply L1 in A. apply L2 in C. unfold lin_share. set (ft := forward t th) in *. set (fa := forward t a) in *. set (fc := forward t c) in *.
    split; [|split].
    + split; [apply Rdiv_lt_0_compat; lra|]. apply (Rmult_lt_reg_r (fc - fa)); [lra|]. replace ((ft - fa) / (fc - fa) * (fc - fa)) with (ft - fa) by (field; lra). lra.
    + destruct (Rltb_spec fa ft); [|lra]. destruct (Rltb_spec ft fc); [|lra]. cbn [andb]. now apply C122_round.
    + destruct (Rltb_spec fa ft); [|lra]. destruct (Rltb_spec ft fc); [|lra]. cbn [andb]. now apply C122_round.
  - intros N bb. destruct (Rltb_spec (forward t a) (forward t th)) as [A|A]; cbn [andb]; [|now rewrite Rmult_1_r].
    destruct (Rltb_spec (forward t th) (forward t c)) as [C|C]; cbn [andb]; [|now rewrite Rmult_1_r].
    apply L1 in A. apply L2 in C. exfalso. lra.
Qed.
Print Assumptions C122_tick_space.

(** no half is given more ticks than fit on the axis, and together the halves are given what fits: exactly if that number is
    even or the share is not a half, and one more or less otherwise *)
Theorem C122_tick_sum : forall t base thresh scale vmin vmax n, made t base thresh scale -> vmin < thresh < vmax -> (0 <= n)%Z ->
  let lin := tick_space t false (vmin, vmax) n in let log := tick_space t true (vmin, vmax) n in
  (0 <= lin <= n)%Z /\ (0 <= log <= n)%Z /\ (n - 1 <= lin + log <= n + 1)%Z /\ (Z.even n = true -> (lin + log = n)%Z).
Proof.
  intros t b th sc a c n M V N lin log. destruct (proj1 (C122_tick_space _ _ _ _ a c n M) V) as ((S0 & S1) & (R1 & Q1) & (R2 & Q2)). fold lin in R1, Q1. fold log in R2, Q2.
  set (s := lin_share t th a c) in *. assert (IN : 0 <= IZR n) by (apply (IZR_le 0); exact N).
  assert (Pp : 0 <= IZR n * s <= IZR n) by nra. assert (Pq : IZR n * s + IZR n * (1 - s) = IZR n) by ring. set (p := IZR n * s) in *. set (q := IZR n * (1 - s)) in *.
  assert (B : forall k r, 0 <= r <= IZR n -> Rabs (IZR k - r) <= 1 / 2 -> (0 <= k <= n)%Z).
  { intros k r (A1 & A2) A3. assert (A4 : r - 1 / 2 <= IZR k <= r + 1 / 2) by (unfold Rabs in A3; destruct (Rcase_abs (IZR k - r)); lra). split.
    - assert (X : -1 < IZR k) by lra. apply lt_IZR in X. lia.
    - assert (X : IZR k < IZR (n + 1)) by (rewrite plus_IZR; lra). apply lt_IZR in X. lia. }
  assert (SUM : (n - 1 <= lin + log <= n + 1)%Z).
  { assert (A1 : p - 1 / 2 <= IZR lin <= p + 1 / 2) by (unfold Rabs in R1; destruct (Rcase_abs (IZR lin - p)); lra).
    assert (A2 : q - 1 / 2 <= IZR log <= q + 1 / 2) by (unfold Rabs in R2; destruct (Rcase_abs (IZR log - q)); lra).
    split; apply le_IZR; rewrite plus_IZR; [rewrite minus_IZR|rewrite plus_IZR]; lra. }
  split; [apply (B lin p); [lra|exact R1]|]. split; [apply (B log q); [lra|exact R2]|]. split; [exact SUM|].
  intros EvN. assert (T : (lin + log = n \/ lin + log = n - 1 \/ lin + log = n + 1)%Z) by lia. destruct T as [T|[T|T]]; [exact T| |]; exfalso.
  - assert (IZR lin + IZR log = IZR n - 1) by (rewrite <- plus_IZR, T, minus_IZR; reflexivity).
    assert (E1 : Z.even lin = true) by (apply Q1; unfold Rabs in *; destruct (Rcase_abs (IZR lin - p)), (Rcase_abs (IZR log - q)); lra).
    assert (E2 : Z.even log = true) by (apply Q2; unfold Rabs in *; destruct (Rcase_abs (IZR lin - p)), (Rcase_abs (IZR log - q)); lra).
    assert (E3 : Z.even (lin + log) = true) by (rewrite Z.even_add, E1, E2; reflexivity). rewrite T, Z.even_sub, EvN in E3. discriminate.
  - assert (IZR lin + IZR log = IZR n + 1) by (rewrite <- plus_IZR, T, plus_IZR; reflexivity).
    assert (E1 : Z.even lin = true) by (apply Q1; unfold Rabs in *; destruct (Rcase_abs (IZR lin - p)), (Rcase_abs (IZR log - q)); lra).
    assert (E2 : Z.even log = true) by (apply Q2; unfold Rabs in *; destruct (Rcase_abs (IZR lin - p)), (Rcase_abs (IZR log - q)); lra).
    assert (E3 : Z.even (lin + log) = true) by (rewrite Z.even_add, E1, E2; reflexivity). rewrite T, Z.even_add, EvN in E3. discriminate.
Qed.
Print Assumptions C122_tick_sum.

(** with the automatic scale the linear half is given the asked fraction of the ticks *)
Theorem C122_auto_scale : forall base thresh vmin vmax f scale n, 0 < thresh -> get_scale base thresh vmin vmax f = Ok scale ->
  exists t, mk_linlog base thresh scale = Ok t /\ rounds (IZR n * f) (tick_space t false (vmin, vmax) n) /\ rounds (IZR n * (1 - f)) (tick_space t true (vmin, vmax) n).
Proof.
  intros b th a c f sc n T H. destruct (C78_fraction _ _ _ _ _ _ T H) as (t & M & F & F01 & V). exists t. split; [exact M|].
  destruct (proj1 (C122_tick_space _ _ _ _ a c n M) V) as (_ & P1 & P2).
  assert (E : lin_share t th a c = f).
  { unfold lin_share. rewrite F. pose proof (proj2 (forward_lt t b th sc a c M)) as L. field. assert (forward t a < forward t c) by (apply L; lra). lra. }
  rewrite E in P1, P2. split; assumption.
Qed.
Print Assumptions C122_auto_scale.

Section Texts.
Context {text : Type} (rd : text -> option R) (zero : text) (flog flin : R -> text) (Hz : rd zero = Some 0).

(** every shown tick is labelled by the formatter of the half whose locator proposed it, and a linear label that reads as
    zero is '0'; no other label is changed *)
Theorem C122_text : forall thresh x,
  (thresh <= x -> tick_text rd zero flog flin thresh x = flog x) /\
  (x < thresh -> (rd (flin x) = Some 0 -> tick_text rd zero flog flin thresh x = zero) /\ (rd (flin x) <> Some 0 -> tick_text rd zero flog flin thresh x = flin x)).
Proof.
  intros th x. unfold tick_text. destruct (Rleb_spec th x) as [L|L]; split; intros H; try (exfalso; lra); try reflexivity.
  split; intros E; [rewrite E; destruct (Reqb_spec 0 0); [reflexivity|congruence]|]. destruct (rd (flin x)) as [r|]; [|reflexivity]. destruct (Reqb_spec r 0) as [->|]; [congruence|reflexivity].
Qed.
Print Assumptions C122_text.
Theorem C122_value_kept : forall thresh x, x < thresh -> rd (tick_text rd zero flog flin thresh x) = rd (flin x).
Proof.
  intros th x L. destruct (C122_text th x) as (_ & H). destruct (H L) as (H0 & H1). destruct (rd (flin x)) as [r|] eqn:E.
  - destruct (Req_dec r 0) as [->|N]; [rewrite H0 by reflexivity; exact Hz|]. rewrite H1 by congruence. exact E.
  - rewrite H1 by discriminate. exact E.
Qed.
Print Assumptions C122_value_kept.
Theorem C122_ticks_texts : forall thresh lin log vmin vmax x, In x (tick_values thresh lin log vmin vmax) ->
  (In x log /\ tick_text rd zero flog flin thresh x = flog x) \/
  (In x lin /\ (tick_text rd zero flog flin thresh x = flin x \/ (tick_text rd zero flog flin thresh x = zero /\ rd (flin x) = Some 0))).
Proof.
  intros th lin log a c x H. destruct (C122_text th x) as (A & B). destruct (C78_ticks _ _ _ _ _ _ H) as [(I & L)|(I & L)].
  - right. split; [exact I|]. destruct (B L) as (B0 & B1). destruct (rd (flin x)) as [r|] eqn:E; [|left; apply B1; congruence].
    destruct (Req_dec r 0) as [->|N]; [right; auto|left; apply B1; congruence].
  - left. split; [exact I|apply A; lra].
Qed.
Print Assumptions C122_ticks_texts.
End Texts.

(** the linear formatter knows every place it will be asked to label, in order, and none of the others *)
Theorem C122_locs : forall thresh l, exists lin, set_locs thresh (Some l) = Ok (l, lin) /\
  (forall x, In x lin <-> In x l /\ x <= thresh) /\ (forall x, In x l -> x < thresh -> In x lin) /\
  (Forall (fun x => x <= thresh) l -> lin = l) /\ (forall l1 l2, l = l1 ++ l2 -> exists m1 m2, lin = m1 ++ m2 /\ set_locs thresh (Some l1) = Ok (l1, m1) /\ set_locs thresh (Some l2) = Ok (l2, m2)).
Proof.
  intros th l. eexists. split; [reflexivity|]. assert (S : forall x, In x (filter (fun i => Rleb i th) l) <-> In x l /\ x <= th).
  { intros x. rewrite filter_In. destruct (Rleb_spec x th); intuition (try congruence; lra). }
  split; [exact S|]. split; [intros x I L; apply S; split; [exact I|lra]|]. split.
  - induction 1 as [|x l' Hx _ IH]; [reflexivity|]. cbn. destruct (Rleb_spec x th); [|lra]. f_equal. apply IH.
    intros y. rewrite filter_In. destruct (Rleb_spec y th); intuition (try congruence; lra).
  - intros l1 l2 ->. exists (filter (fun i => Rleb i th) l1), (filter (fun i => Rleb i th) l2). split; [apply filter_app|]. split; reflexivity.
Qed.
Print Assumptions C122_locs.
Theorem C122_no_locs_refuted : forall thresh, set_locs thresh None = Err TypeError.
Proof. reflexivity. Qed.
Print Assumptions C122_no_locs_refuted.

(** non-vacuity: an odd number of ticks split in two equal halves *)
Example C122_ex_odd : exists t, mk_linlog 2 1 (1 / 2) = Ok t /\ lin_share t 1 0 2 = 1 / 2 /\ tick_space t false (0, 2) 3 = 2%Z /\ tick_space t true (0, 2) 3 = 2%Z.
Proof.
  destruct (proj2 (C78_accepts 2 1 (1 / 2))) as (t & M); [lra|]. exists t. split; [exact M|].
  destruct (C78_shape _ _ _ _ M) as (_ & D & Z). pose proof (forward_thresh _ _ _ _ M) as FT. destruct (made_inv _ _ _ _ M) as (E & _).
  assert (A : adj t = 1) by (rewrite E; unfold adj; cbn; field). rewrite A in FT. specialize (D 1 (Rle_refl 1)). rewrite Rmult_1_r in D.
  assert (S : lin_share t 1 0 2 = 1 / 2) by (unfold lin_share; rewrite Z, FT; replace (forward t 2) with 2 by lra; field). split; [exact S|].
  assert (V : 0 < 1 < 2) by lra. destruct (proj1 (C122_tick_space _ _ _ _ 0 2 3 M) V) as (_ & P & Q). rewrite S in P, Q.
  split; [apply C122_round in P; rewrite <- P|apply C122_round in Q; rewrite <- Q]; apply C122_round; unfold rounds; (split; [|reflexivity]); unfold Rabs; destruct (Rcase_abs _); lra.
Qed.
