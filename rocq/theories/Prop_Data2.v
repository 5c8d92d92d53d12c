(** C70: what [SpectrumData] accepts and stores.  C71: which channels are bad.  C18: area scaling of noticed channels. *)
From Verif Require Import RBase BaseFacts Grouping Scale ScaleProofs Significance Data DataProofs DataState DataFacts Prop_Data.

(** an argument given once for all [n] channels or channel by channel, and the list of its values *)
Inductive given : arr -> nat -> list R -> Prop :=
| given_once : forall x n, given (Scal x) n (repeat x n)
| given_each : forall l, given (Arr l) (length l) l.
(** optional integer flags with a default *)
Definition flags_given (o : option (list Z)) (d : Z) (n : nat) (l : list Z) : Prop :=
  match o with Some q => l = q /\ length q = n | None => l = repeat d n end.
Definition nonneg (l : list R) : Prop := Forall (fun x => 0 <= x) l.

(** the requirements of the constructor *)
Definition acceptable (counts errors : list R) (poisson : bool) (exposure : R) (q g : list Z) (area back sys : list R) : Prop :=
  counts <> [] /\ length errors = length counts /\
  Forall (fun x => x = 0 \/ x = 1 \/ x = 2 \/ x = 5 \/ x = -1)%Z q /\
  (poisson = true -> nonneg counts) /\ nonneg errors /\ nonneg sys /\ 0 < exposure /\ nonneg area /\ nonneg back.

Lemma Reqb_true x y : Reqb x y = true <-> x = y.
Proof. destruct (Reqb_spec x y); intuition discriminate. Qed.
Lemma Reqb_false x y : Reqb x y = false <-> x <> y.
Proof. destruct (Reqb_spec x y); intuition discriminate. Qed.
Lemma arr_given a n l : given a n l <-> arr_ok a n = true /\ l = arr_get a n.
Proof.
  split.
  - intros H. destruct H; cbn; [auto|]. now rewrite Nat.eqb_refl.
  - destruct a as [x|x]; cbn; intros (H & ->); [constructor|]. apply Nat.eqb_eq in H as <-. constructor.
Qed.
Lemma nonneg_ltb l : existsb (fun x => Rltb x 0) l = false <-> nonneg l.
Proof.
  unfold nonneg. induction l as [|x l IH]; cbn; [split; auto|]. rewrite orb_false_iff, IH, Rltb_false. split.
  - intros (A & B). constructor; auto. 
  - intros H. inversion H; auto.
Qed.
Lemma quality_ok q : forallb (fun q => existsb (Z.eqb q) quality_values) q = true <-> Forall (fun x => x = 0 \/ x = 1 \/ x = 2 \/ x = 5 \/ x = -1)%Z q.
Proof.
  rewrite forallb_forall, Forall_forall. split; intros H x Hx; specialize (H x Hx).
  - cbn in H. repeat (apply orb_true_iff in H as [H|H]; [apply Z.eqb_eq in H; lia|]). discriminate.
  - cbn. destruct H as [->|[->|[->|[->| ->]]]]; reflexivity.
Qed.
Lemma reset_nonneg a q : length a = length q -> (nonneg (reset_zero a q) <-> nonneg a).
Proof.
  unfold nonneg, reset_zero. revert q. induction a as [|x a IH]; intros [|y q] L; try discriminate; cbn [zip2]; [split; constructor|].
  injection L as L. specialize (IH q L). split; intros H; inversion H as [|? ? H1 H2]; subst; constructor; try tauto.
  - destruct (Reqb x 0) eqn:E; cbn [andb] in H1; [apply Reqb_true in E; lra|exact H1].
  - destruct (Reqb x 0 && _)%bool; lra.
Qed.
Lemma reset_positive a q : length a = length q -> nonneg a ->
  forallb (fun p => Rltb 0 (fst p) || Z.eqb (snd p) 1)%bool (combine (reset_zero a q) q) = true.
Proof.
  unfold nonneg, reset_zero. revert q. induction a as [|x a IH]; intros [|y q] L H; try discriminate; cbn [zip2 combine forallb]; [reflexivity|].
  injection L as L. inversion H as [|? ? H1 H2]; subst. rewrite (IH q L H2), andb_true_r. cbn [fst snd].
  destruct (Z.eqb y 1); [now rewrite orb_true_r|]. rewrite orb_false_r, andb_true_r.
  destruct (Reqb x 0) eqn:E; apply Rltb_true; [lra|]. apply Reqb_false in E. lra.
Qed.

Lemma mk_spectrum_iff counts errors po ex q g area back net sys s :
  mk_spectrum counts errors po ex q g area back net sys = Ok s <->
  exists q' g' a' b' s', let n := length counts in
    flags_given q 0 n q' /\ flags_given g 1 n g' /\ given area n a' /\ given back n b' /\ given sys n s' /\
    acceptable counts errors po ex q' g' a' b' s' /\
    s = {| s_counts := counts;
           s_errors := if po then errors else zip2 (fun e cs => sqrt (sq e + sq cs)) errors (zip2 Rmult s' counts);
           s_poisson := po; s_exposure := ex; s_quality := q'; s_grouping := fix_first g';
           s_area := reset_zero a' q'; s_back := reset_zero b' q'; s_net_opt := net |}.
Proof.
  set (n := length counts).
  assert (FG : forall o d l, flags_given o d n l <-> l = match o with Some q => q | None => repeat d n end /\ length l = n).
  { intros [o|] d l; cbn; split; intros H; [destruct H; subst; auto|destruct H as (-> & ?); auto|subst; rewrite repeat_length; auto|tauto]. }
  split.
  - intros H. unfold mk_spectrum in H. fold n in H. cbv zeta in H.
    set (qq := match q with Some q => q | None => repeat 0%Z n end) in *.
    set (gg := match g with Some g => g | None => repeat 1%Z n end) in *.
    repeat chk H. match goal with X : gg = _ :: _ |- _ => assert (Hgg : gg <> []) by (rewrite X; discriminate); rewrite <- X in *; clear X end. apply Nat.eqb_eq in E, E0, E1. apply andb_true_iff in E2 as (E2 & E2c). apply andb_true_iff in E2 as (E2a & E2b).
    exists qq, gg, (arr_get area n), (arr_get back n), (arr_get sys n). cbv zeta.
    pose proof (arr_get_length _ _ E2a) as La. pose proof (arr_get_length _ _ E2b) as Lb.
    split; [apply FG; auto|]. split; [apply FG; auto|]. split; [apply arr_given; auto|]. split; [apply arr_given; auto|]. split; [apply arr_given; auto|].
    split; [|injection H as <-; reflexivity].
    unfold acceptable. split; [intros X; unfold n in E1; rewrite X in E1; apply length_zero_iff_nil in E1; contradiction|]. split; [exact E|]. split; [now apply quality_ok|].
    split; [intros ->; cbn [andb] in E4; now apply nonneg_ltb|]. split; [now apply nonneg_ltb|]. split; [now apply nonneg_ltb|].
    split; [now apply Rleb_false|]. split; apply (reset_nonneg _ qq); try congruence; now apply nonneg_ltb.
  - intros (q' & g' & a' & b' & s' & H). cbv zeta in H. destruct H as (Hq & Hg & Ha & Hb & Hs & Hacc & ->).
    apply FG in Hq as (-> & Lq). apply FG in Hg as (-> & Lg). apply arr_given in Ha as (Oa & ->). apply arr_given in Hb as (Ob & ->). apply arr_given in Hs as (Os & ->).
    destruct Hacc as (Hc & Le & Hq & Hp & He & Hsy & Hx & Haa & Hbb).
    pose proof (arr_get_length _ _ Oa) as La. pose proof (arr_get_length _ _ Ob) as Lb.
    unfold mk_spectrum. fold n. cbv zeta.
    set (qq := match q with Some q => q | None => repeat 0%Z n end) in *.
    set (gg := match g with Some g => g | None => repeat 1%Z n end) in *.
    rewrite Le, Lq, Lg. fold n. rewrite Nat.eqb_refl, Oa, Ob, Os. cbn [negb andb].
    apply quality_ok in Hq. rewrite Hq. cbn [negb].
    assert (X : (po && existsb (fun c => Rltb c 0) counts)%bool = false).
    { destruct po; [|reflexivity]. cbn [andb]. apply nonneg_ltb. auto. }
    rewrite X. apply nonneg_ltb in He, Hsy. rewrite He, Hsy. replace (Rleb ex 0) with false by (symmetry; apply Rleb_false; exact Hx).
    rewrite (reset_positive _ qq), (reset_positive _ qq) by (congruence || assumption).
    apply (reset_nonneg _ qq) in Haa, Hbb; try congruence. apply nonneg_ltb in Haa, Hbb. rewrite Haa, Hbb. cbn [negb].
    destruct gg eqn:Eg; [|reflexivity]. destruct counts; [now contradiction Hc|discriminate Lg].
Qed.

(** the constructor accepts exactly the acceptable arguments *)
Theorem C70_accepts : forall counts errors po ex q g area back net sys,
  (exists s, mk_spectrum counts errors po ex q g area back net sys = Ok s) <->
  exists q' g' a' b' s', let n := length counts in
    flags_given q 0 n q' /\ flags_given g 1 n g' /\ given area n a' /\ given back n b' /\ given sys n s' /\
    acceptable counts errors po ex q' g' a' b' s'.
Proof.
  intros. split.
  - intros (s & H). apply mk_spectrum_iff in H as (q' & g' & a' & b' & s' & H). exists q', g', a', b', s'. cbv zeta in *. tauto.
  - intros (q' & g' & a' & b' & s' & H). cbv zeta in H. eexists. apply mk_spectrum_iff. exists q', g', a', b', s'. cbv zeta.
    repeat match goal with X : _ /\ _ |- _ => destruct X end. repeat (split; [eassumption|]). reflexivity.
Qed.
Print Assumptions C70_accepts.
(** and stores, channel by channel: the counts; the errors, with the systematic part added in quadrature for Gaussian
    data; the flags, the first of which always opens a group; the scales, a zero of which is replaced by one unless the
    channel has quality 1 *)
Theorem C70_stores : forall counts errors po ex q g area back net sys s q' g' a' b' s',
  mk_spectrum counts errors po ex q g area back net sys = Ok s ->
  let n := length counts in
  flags_given q 0 n q' -> flags_given g 1 n g' -> given area n a' -> given back n b' -> given sys n s' ->
  s_counts s = counts /\ s_poisson s = po /\ s_exposure s = ex /\ s_quality s = q' /\
  length (s_errors s) = n /\ length (s_grouping s) = n /\ length (s_area s) = n /\ length (s_back s) = n /\
  forall k, (k < n)%nat ->
    (po = true -> nth k (s_errors s) 0 = nth k errors 0) /\
    (po = false -> 0 <= nth k (s_errors s) 0 /\ (nth k (s_errors s) 0) ^ 2 = (nth k errors 0) ^ 2 + (nth k s' 0 * nth k counts 0) ^ 2) /\
    nth k (s_grouping s) 0%Z = (if (k =? 0)%nat then if (nth k g' 0 =? -1)%Z then 1%Z else nth k g' 0%Z else nth k g' 0%Z) /\
    (nth k a' 0 = 0 /\ nth k q' 0%Z <> 1%Z -> nth k (s_area s) 0 = 1) /\
    (nth k a' 0 <> 0 \/ nth k q' 0%Z = 1%Z -> nth k (s_area s) 0 = nth k a' 0) /\
    (nth k b' 0 = 0 /\ nth k q' 0%Z <> 1%Z -> nth k (s_back s) 0 = 1) /\
    (nth k b' 0 <> 0 \/ nth k q' 0%Z = 1%Z -> nth k (s_back s) 0 = nth k b' 0).
Proof.
  intros until s'. intros H n Fq Fg Ga Gb Gs. apply mk_spectrum_iff in H as (q2 & g2 & a2 & b2 & s2 & H). cbv zeta in H. fold n in H.
  destruct H as (Fq2 & Fg2 & Ga2 & Gb2 & Gs2 & Hacc & ->).
  assert (FU : forall o d l l', flags_given o d n l -> flags_given o d n l' -> l = l' /\ length l = n).
  { intros [o|] d l l' A B; cbn in A, B; [destruct A, B; subst; auto|subst; rewrite repeat_length; auto]. }
  assert (GU : forall a l l', given a n l -> given a n l' -> l = l' /\ length l = n).
  { intros a l l' A B. apply arr_given in A as (A & ->). apply arr_given in B as (_ & ->). split; [reflexivity|now apply arr_get_length]. }
  destruct (FU _ _ _ _ Fq Fq2) as (<- & Lq). destruct (FU _ _ _ _ Fg Fg2) as (<- & Lg).
  destruct (GU _ _ _ Ga Ga2) as (<- & La). destruct (GU _ _ _ Gb Gb2) as (<- & Lb). destruct (GU _ _ _ Gs Gs2) as (<- & Ls).
  cbn [s_counts s_errors s_poisson s_exposure s_quality s_grouping s_area s_back]. destruct Hacc as (_ & Le & _). fold n in Le.
  split; [reflexivity|]. split; [reflexivity|]. split; [reflexivity|]. split; [reflexivity|].
  assert (ZN : forall (A B C : Type) (f : A -> B -> C) x y k da db dc, length x = n -> length y = n -> (k < n)%nat -> nth k (zip2 f x y) dc = f (nth k x da) (nth k y db)).
  { intros A B C f x y k da db dc Lx Ly Hk. rewrite <- Lx in Hk. assert (Hk' : (k < length y)%nat) by lia. clear Lx Ly. revert y k Hk Hk'.
    induction x as [|u x IH]; intros [|v y] [|k] Hk Hk'; cbn in *; try lia; auto. apply IH; lia. }
  split; [destruct po; [exact Le|]; rewrite !zip2_length; lia|].
  split; [destruct g'; exact Lg|]. unfold reset_zero. split; [rewrite zip2_length; lia|]. split; [rewrite zip2_length; lia|].
  intros k Hk. split; [now intros ->|]. split.
  { intros ->. rewrite (ZN _ _ _ _ _ _ k 0 0) by (try rewrite zip2_length; lia). rewrite (ZN _ _ _ _ _ _ k 0 0) by lia.
    split; [apply sqrt_pos|]. rewrite pow2_sqrt; unfold sq; nra. }
  split.
  { destruct g' as [|f g']; [cbn in Lg; lia|]. destruct k; reflexivity. }
  assert (RZ : forall a, length a = n -> let z := zip2 (fun s q => if (Reqb s 0 && negb (Z.eqb q 1))%bool then 1 else s) a q' in
    (nth k a 0 = 0 /\ nth k q' 0%Z <> 1%Z -> nth k z 0 = 1) /\ (nth k a 0 <> 0 \/ nth k q' 0%Z = 1%Z -> nth k z 0 = nth k a 0)).
  { intros a L z. unfold z. rewrite (ZN _ _ _ _ _ _ k 0 0%Z) by assumption. split.
    - intros (A & B). apply Z.eqb_neq in B. rewrite B. replace (Reqb (nth k a 0) 0) with true by (symmetry; now apply Reqb_true). reflexivity.
    - intros [A|A]; [replace (Reqb (nth k a 0) 0) with false by (symmetry; now apply Reqb_false); reflexivity|]. rewrite A. cbn. now rewrite andb_false_r. }
  destruct (RZ a' La), (RZ b' Lb). auto.
Qed.
Print Assumptions C70_stores.
Example C70_ex : exists s, mk_spectrum [4; 9] [2; 3] false 10 (Some [0; 1]%Z) (Some [-1; -1]%Z) (Arr [0; 0]) (Scal 1) None (Scal 0.1) = Ok s.
Proof.
  apply C70_accepts. exists [0; 1]%Z, [-1; -1]%Z, [0; 0], (repeat 1 2), (repeat 0.1 2). cbv zeta.
  split; [split; reflexivity|]. split; [split; reflexivity|]. split; [exact (given_each [0; 0])|]. split; [apply given_once|]. split; [apply given_once|].
  unfold acceptable, nonneg. split; [discriminate|]. split; [reflexivity|]. split; [repeat constructor; lia|].
  split; [discriminate|]. split; [repeat constructor; lra|]. split; [repeat constructor; lra|]. split; [lra|]. split; repeat constructor; lra.
Qed.

(** ** C71: the channels used *)
Definition flagged_bad (ignore_bad : bool) (q : Z) : Prop := (q = 1 \/ (ignore_bad = true /\ (q = 2 \/ q = 5)))%Z.
Lemma is_good_spec ib q : is_good ib q = false <-> flagged_bad ib q.
Proof.
  unfold is_good, flagged_bad. destruct ib; cbn [existsb]; rewrite negb_false_iff, !orb_true_iff, !Z.eqb_eq; intuition (discriminate || auto).
Qed.
Theorem C71_good_channels : forall er s r b ib o ops, built er s r b ib o -> forall k,
  nth k (o_good (run o ops)) false = true <->
  (k < length (s_counts s))%nat /\ ~ flagged_bad ib (nth k (s_quality s) 0%Z) /\
  forall b', b = Some b' -> ~ flagged_bad ib (nth k (s_quality b') 0%Z).
Proof.
  intros er s r b ib o ops H k. destruct (built_inv er s r b ib o ops H) as (n & Hn & Ws & Wr & Wb & Hg & Ho).
  assert (Eg : o_good (run o ops) = good_mask ib s b) by (destruct Ho; assumption). rewrite Eg.
  assert (Ls : length (s_counts s) = n) by (destruct Ws; assumption). assert (Lq : length (s_quality s) = n) by (destruct Ws; assumption). rewrite Ls.
  assert (G : forall q, ~ flagged_bad ib q <-> is_good ib q = true).
  { intros q. rewrite <- is_good_spec. destruct (is_good ib q); intuition congruence. }
  rewrite G.
  destruct (Nat.lt_ge_cases k n) as [Hk|Hk].
  - unfold good_mask. destruct b as [b'|].
    + assert (Lqb : length (s_quality b') = n) by (destruct (Wb _ eq_refl); assumption).
      assert (N : nth k (zip2 andb (map (is_good ib) (s_quality s)) (map (is_good ib) (s_quality b'))) false = (is_good ib (nth k (s_quality s) 0%Z) && is_good ib (nth k (s_quality b') 0%Z))%bool).
      { clear - Hk Lq Lqb. rewrite <- Lq in Hk. assert (Hk' : (k < length (s_quality b'))%nat) by lia. clear Lq Lqb. revert Hk Hk'.
        generalize (s_quality s) (s_quality b'). intros x. revert k. induction x as [|u x IH]; intros [|k] [|v y] Hk Hk'; cbn in *; try lia; auto. apply IH; lia. }
      rewrite N, andb_true_iff. split; [intros (A & B); repeat split; auto; intros b2 X; injection X as <-; now apply G|].
      intros (_ & A & B). split; [exact A|]. apply G. now apply B.
    + rewrite (nth_indep _ false (is_good ib 0%Z)) by (rewrite map_length; lia). rewrite (map_nth (is_good ib) (s_quality s)).
      split; [intros A; repeat split; auto; discriminate|tauto].
  - rewrite nth_overflow by (rewrite Hg; exact Hk). split; [discriminate|lia].
Qed.
Print Assumptions C71_good_channels.
(** construction succeeds only if some channel is good *)
Theorem C71_some_good : forall er s r b ib o, built er s r b ib o -> exists k, (k < length (s_counts s))%nat /\ nth k (o_good o) false = true.
Proof.
  intros er s r b ib o H. destruct (built_inv er s r b ib o [] H) as (n & Hn & Ws & Wr & Wb & Hg & Ho). cbn [run fold_left] in Ho.
  assert (Eg : o_good o = good_mask ib s b) by (destruct Ho; assumption). rewrite Eg.
  assert (Ls : length (s_counts s) = n) by (destruct Ws; assumption). rewrite Ls.
  destruct H as (_ & _ & _ & H). unfold mk_obs in H. chk H. chk H. cbv zeta in H. chk H.
  match goal with X : existsb _ _ = true |- _ => apply existsb_exists in X as (x & Hx & Ex) end. subst x.
  apply In_nth with (d := false) in Hx as (k & Hk & Ek). exists k. split; [lia|exact Ek].
Qed.
Print Assumptions C71_some_good.
Example C71_ex : flagged_bad true 5 /\ ~ flagged_bad false 5 /\ flagged_bad false 1 /\ ~ flagged_bad true 0.
Proof. unfold flagged_bad. repeat split; intuition (discriminate || auto). Qed.

(** ** C18: the area scaling of a noticed channel is that of its good channels *)
(** data declared net, or with negative counts when nothing is declared *)
Definition is_net (s : spectrum) : Prop :=
  match s_net_opt s with Some f => f = true | None => Exists (fun c => c < 0) (s_counts s) end.
Theorem C18_area : forall er s r b ib o ops (net : bool), built er s r b ib o ->
  (net = true <-> b = None /\ is_net s) ->
  let x := o_exp (run o ops) in
  length (x_area x) = length (x_chan x) /\
  forall j, (j < length (x_chan x))%nat -> let p := nth j (x_chan x) (0, 0)%nat in
  (forall k, (fst p <= k < snd p)%nat -> isgood (good_mask ib s b) k = true -> 0 <= nth k (s_counts s) 0) ->
  nth j (x_area x) 0 = expected_scale net (chans (s_counts s) (s_area s) (good_mask ib s b) p).
Proof.
  intros er s r b ib o ops net H En x. destruct (built_inv er s r b ib o ops H) as (n & Hn & Ws & Wr & Wb & Hg & Ho).
  assert (E : net = scale_net s b).
  { assert (X : scale_net s b = true <-> b = None /\ is_net s).
    { unfold scale_net, is_net, s_net. rewrite andb_true_iff. destruct b; [split; [intros (_ & X); discriminate|intros (X & _); discriminate]|].
      destruct (s_net_opt s) as [f|]; [tauto|]. rewrite existsb_exists, Exists_exists.
      split; [intros ((c & A & B) & _); split; [reflexivity|exists c; split; [exact A|now apply Rltb_true]]|].
      intros (_ & c & A & B). split; [|reflexivity]. exists c. split; [exact A|now apply Rltb_true]. }
    apply eq_true_iff_eq. tauto. }
  rewrite E. clear E En net.
  subst x. rewrite (ok_exp _ _ _ _ _ _ Ho). cbn [exposed_of x_area x_chan]. split; [apply map_length|].
  intros j Hj Hc.
  match goal with |- nth j (map ?f ?l) 0 = _ => rewrite (nth_indep (map f l) 0 (f (0, 0)%nat)) by (rewrite map_length; exact Hj); rewrite (map_nth f l) end.
  destruct H as (Hs & _). apply C22_scale_is_mean; [exact Hs|now left| |exact Hc].
  assert (Ls : length (s_counts s) = n) by (destruct Ws; assumption). rewrite Ls.
  assert (Hin : In (nth j (filter (noticedb (o_erange (run o ops)) r (good_mask ib s b)) (bins (o_grouping (run o ops)))) (0, 0)%nat) (filter (noticedb (o_erange (run o ops)) r (good_mask ib s b)) (bins (o_grouping (run o ops))))) by (now apply nth_In).
  apply filter_In in Hin as (Hin & _). apply bins_ok in Hin. rewrite (ok_len _ _ _ _ _ _ Ho) in Hin. lia.
Qed.
Print Assumptions C18_area.
