(** Lemmas behind C17, C22, C23: energy tiling, net spectrum, bad channels. *)
From Verif Require Import RBase BaseFacts Grouping Scale ScaleProofs Significance Data DataProofs DataState DataFacts.

(** ** C17 *)
Section Tiling.
Variables (r : response) (n : nat).
Hypothesis Hlo : forall k, (k < n)%nat -> nth k (r_emin r) 0 <= nth k (r_emax r) 0.
Hypothesis Hc : forall k, (S k < n)%nat -> nth k (r_emax r) 0 = nth (S k) (r_emin r) 0.
Lemma tiling_mono a b : (a <= b < n)%nat ->
  nth a (r_emin r) 0 <= nth b (r_emin r) 0 /\ nth a (r_emax r) 0 <= nth b (r_emax r) 0.
Proof.
  intros (Hab & Hb). induction b as [|b IH].
  - assert (a = 0)%nat by lia. subst. lra.
  - destruct (Nat.eq_dec a (S b)) as [->|Hne]; [lra|]. destruct IH as (A & B); [lia|lia|].
    pose proof (Hc b Hb). pose proof (Hlo b ltac:(lia)). pose proof (Hlo (S b) Hb). lra.
Qed.
Lemma tiling_bounds p : (fst p < snd p <= n)%nat ->
  gemin r p = nth (fst p) (r_emin r) 0 /\ gemax r p = nth (snd p - 1) (r_emax r) 0.
Proof.
  intros Hp.
  assert (Hne : forall x, map (at_ x) (idx p) <> []).
  { intros x E. apply map_eq_nil in E. assert (In (fst p) (idx p)) by (apply in_idx; lia). rewrite E in H. easy. }
  destruct (lmin_spec _ (Hne (r_emin r))) as (A & B). destruct (lmax_spec _ (Hne (r_emax r))) as (C & D).
  fold (gemin r p) in A, B. fold (gemax r p) in C, D.
  apply in_map_iff in A as (k & EA & Hk). apply in_map_iff in C as (k' & EC & Hk'). apply in_idx in Hk, Hk'. split.
  - apply Rle_antisym; [apply B; apply (in_map (at_ (r_emin r))), in_idx; lia|]. rewrite <- EA. apply tiling_mono. lia.
  - apply Rle_antisym; [rewrite <- EC; apply tiling_mono; lia|]. apply D; apply (in_map (at_ (r_emax r))), in_idx; lia.
Qed.
End Tiling.

(** ** C22 *)
Lemma gsc_expected net counts scale good p :
  (forall k, (fst p <= k < snd p)%nat -> isgood good k = true -> 0 <= nth k counts 0 /\ 0 < nth k scale 0) ->
  gsc net counts scale good p = expected_scale net (chans counts scale good p).
Proof.
  intros H. unfold gsc. apply raw_group_expected. unfold chans. apply Forall_forall. intros x Hx.
  apply in_map_iff in Hx as (k & <- & Hk). apply in_idx in Hk. intros Hq. exact (H k Hk Hq).
Qed.

(** ** C23 *)
Definition agree (good : list bool) (x y : list R) : Prop :=
  length x = length y /\ forall k, isgood good k = true -> nth k x 0 = nth k y 0.
Lemma agree_tail good a x y xs ys : agree (a :: good) (x :: xs) (y :: ys) ->
  (a = true -> x = y) /\ agree good xs ys.
Proof.
  intros (H1 & H2). split; [intros ->; apply (H2 0%nat eq_refl)|]. split; [now injection H1|].
  intros k Hk. exact (H2 (S k) Hk).
Qed.
Lemma agree_nil_good x y : length x = length y -> agree [] x y.
Proof. intros H. split; [exact H|]. intros [|k]; discriminate. Qed.
Lemma agree_rmul good : forall x y, agree good x y -> rmul2 (map b2r good) x = rmul2 (map b2r good) y.
Proof.
  unfold rmul2. induction good as [|a good IH]; intros [|x xs] [|y ys] H; try reflexivity; try (destruct H; discriminate).
  apply agree_tail in H as (H1 & H2). cbn [map combine fst snd]. rewrite (IH _ _ H2). f_equal.
  destruct a; cbn [b2r]; [now rewrite H1|lra].
Qed.
Lemma agree_map good (f : R -> R) : forall x y, agree good x y -> agree good (map f x) (map f y).
Proof.
  induction good as [|a good IH]; intros [|x xs] [|y ys] H; try (destruct H; discriminate);
    try (apply agree_nil_good; cbn; destruct H as (H & _); cbn in H; rewrite ?map_length; lia).
  - split; [reflexivity|reflexivity].
  - apply agree_tail in H as (H1 & H2). destruct (IH _ _ H2) as (L & N). split; [cbn; lia|].
    intros [|k] Hk; cbn in *; [now rewrite H1|now apply N].
Qed.
Lemma agree_div good : forall x y s t, agree good x y -> agree good s t -> length x = length s ->
  agree good (map (fun p => div0 (fst p) (snd p)) (combine x s)) (map (fun p => div0 (fst p) (snd p)) (combine y t)).
Proof.
  intros x y s t (L1 & N1) (L2 & N2) L3. split.
  - rewrite !map_length, !combine_length. lia.
  - intros k Hk. destruct (Nat.lt_ge_cases k (length x)) as [H|H].
    + set (f := fun p : R * R => div0 (fst p) (snd p)).
      rewrite (nth_indep _ 0 (f (0, 0))) by (rewrite map_length, combine_length; lia).
      rewrite (nth_indep (map f (combine y t)) 0 (f (0, 0))) by (rewrite map_length, combine_length; lia).
      rewrite !map_nth, !combine_nth by lia. now rewrite (N1 k Hk), (N2 k Hk).
    + rewrite !nth_overflow by (rewrite map_length, combine_length; lia). reflexivity.
Qed.

Lemma spectrum_group_agree s s' fl good : agree good (s_counts s) (s_counts s') -> agree good (s_errors s) (s_errors s') ->
  spectrum_group s fl good = spectrum_group s' fl good.
Proof.
  intros H1 H2. unfold spectrum_group. rewrite (proj1 H1). unfold gsum.
  rewrite (agree_rmul _ _ _ H1), (agree_rmul _ _ _ (agree_map _ sq _ _ H2)). reflexivity.
Qed.
Lemma scale_raw_agree c c' s s' fl good net : agree good c c' -> agree good s s' ->
  group_scale_raw c s fl (Some (map b2r good)) net = group_scale_raw c' s' fl (Some (map b2r good)) net.
Proof.
  intros H1 H2. unfold group_scale_raw, group_scale_data, opt_len, same_len. rewrite (proj1 H1), (proj1 H2).
  destruct (length c' =? length s') eqn:E; cbn [andb negb]; [|reflexivity].
  apply Nat.eqb_eq in E. destruct (negb _); [reflexivity|]. cbn [dflt].
  rewrite (agree_rmul _ _ _ H1), (agree_rmul _ _ _ H2).
  rewrite (agree_rmul _ _ _ (agree_div _ _ _ _ _ H1 H2 ltac:(rewrite (proj1 H1), (proj1 H2); exact E))).
  rewrite (agree_rmul _ _ _ (agree_map _ (fun s => div0 1 s) _ _ H2)).
  replace (map (fun _ => 1) c) with (map (fun _ => 1) c'); [reflexivity|].
  destruct H1 as (H1 & _). clear - H1. revert c' H1; induction c as [|x c IH]; intros [|y c'] H; try discriminate; [reflexivity|].
  cbn [map]. f_equal. apply IH. now injection H.
Qed.

(** two spectra that differ only in bad channels *)
Record same_good (good : list bool) (s s' : spectrum) : Prop := {
  sg_c : agree good (s_counts s) (s_counts s'); sg_e : agree good (s_errors s) (s_errors s');
  sg_a : agree good (s_area s) (s_area s'); sg_b : agree good (s_back s) (s_back s');
  sg_p : s_poisson s = s_poisson s'; sg_x : s_exposure s = s_exposure s';
  sg_g : s_grouping s = s_grouping s' }.
Inductive opt_rel {A} (P : A -> A -> Prop) : option A -> option A -> Prop :=
| opt_none : opt_rel P None None
| opt_some x y : P x y -> opt_rel P (Some x) (Some y).
Record same_resp (good : list bool) (r r' : response) : Prop := {
  sr_lo : r_emin r = r_emin r'; sr_hi : r_emax r = r_emax r'; sr_w : r_fwhm r = r_fwhm r';
  sr_m : Forall2 (agree good) (r_matrix r) (r_matrix r') }.

Lemma group_scales_agree s s' net fl good : same_good good s s' ->
  group_scales s net fl good = group_scales s' net fl good.
Proof.
  intros H. unfold group_scales.
  rewrite (scale_raw_agree _ _ _ _ fl good net (sg_c _ _ _ H) (sg_a _ _ _ H)).
  rewrite (scale_raw_agree _ _ _ _ fl good net (sg_c _ _ _ H) (sg_b _ _ _ H)). reflexivity.
Qed.

(** a mask that selects only good channels cannot see the bad ones *)
Definition mask_good (m good : list bool) : Prop := forall k, nth k m false = true -> isgood good k = true.
Lemma bmask_agree m good : forall x y, mask_good m good -> agree good x y -> bmask m x = bmask m y.
Proof.
  revert good; induction m as [|b m IH]; intros good [|x xs] [|y ys] Hm H; try reflexivity; try (destruct H; discriminate).
  destruct good as [|a good].
  - destruct b; [specialize (Hm 0%nat eq_refl); discriminate|]. cbn [bmask].
    apply (IH []); [intros k Hk; specialize (Hm (S k) Hk); destruct k; discriminate|].
    apply agree_nil_good. destruct H as (H & _). now injection H.
  - apply agree_tail in H as (H1 & H2).
    assert (Hm' : mask_good m good) by (intros k Hk; exact (Hm (S k) Hk)).
    cbn [bmask]. rewrite (IH good xs ys Hm' H2). destruct b; [|reflexivity].
    f_equal. apply H1. exact (Hm 0%nat eq_refl).
Qed.

Lemma csum_agree good x y p : agree good x y -> csum good x p = csum good y p.
Proof. intros (_ & H). apply csum_ext. intros k Hk _. now apply H. Qed.
Lemma gsc_agree net c c' s s' good p : agree good c c' -> agree good s s' ->
  gsc net c s good p = gsc net c' s' good p.
Proof.
  intros (_ & H1) (_ & H2). unfold gsc, gstat, chans. rewrite !map_map. cbn [ch_c ch_s ch_q fst snd].
  assert (E : forall f g : nat -> R, (forall k, isgood good k = true -> f k = g k) ->
    map (fun k => b2r (isgood good k) * f k) (idx p) = map (fun k => b2r (isgood good k) * g k) (idx p)).
  { intros f g H. apply map_ext. intros k. destruct (isgood good k) eqn:E; cbn [b2r]; [now rewrite H|lra]. }
  rewrite (E (at_ c) (at_ c')) by auto. rewrite (E (at_ s) (at_ s')) by auto.
  rewrite (E (fun k => div0 (nth k c 0) (nth k s 0)) (fun k => div0 (nth k c' 0) (nth k s' 0))) by (intros k Hk; now rewrite H1, H2).
  rewrite (E (fun k => div0 1 (nth k s 0)) (fun k => div0 1 (nth k s' 0))) by (intros k Hk; now rewrite H2).
  reflexivity.
Qed.

Lemma exposed_agree s s' r r' b b' good er fl : same_good good s s' -> same_resp good r r' ->
  opt_rel (same_good good) b b' -> scale_net s b = scale_net s' b' ->
  exposed_of s r b good er fl = exposed_of s' r' b' good er fl.
Proof.
  intros [Sc Se Sa Sb Sp Sx Sg] [Rl Rh Rw Rm] Hb Hn.
  assert (Emin : forall p, gemin r p = gemin r' p) by (intros p; unfold gemin; now rewrite Rl).
  assert (Emax : forall p, gemax r p = gemax r' p) by (intros p; unfold gemax; now rewrite Rh).
  assert (EL : filter (noticedb er r good) (bins fl) = filter (noticedb er r' good) (bins fl)).
  { apply filter_ext_len. intros p _. unfold noticedb. now rewrite Emin, Emax. }
  assert (Eerr : forall u v, agree good u v -> forall p, sqrt (csum good (map sq u) p) = sqrt (csum good (map sq v) p)).
  { intros u v H p. f_equal. now apply csum_agree, agree_map. }
  unfold exposed_of. rewrite EL. set (L := filter (noticedb er r' good) (bins fl)).
  assert (Em : map (fun row => map (csum good row) L) (r_matrix r) = map (fun row => map (csum good row) L) (r_matrix r')).
  { clear - Rm. induction Rm as [|x y l l' Hxy _ IH]; [reflexivity|]. cbn [map]. rewrite IH. f_equal.
    apply map_ext. intros p. now apply csum_agree. }
  inversion Hb as [|x y Hxy E1 E2]; subst.
  - f_equal; try exact Em; try (apply map_ext; intros p; rewrite ?Emin, ?Emax, ?Sx, ?Hn; unfold c_err;
      rewrite ?(csum_agree good _ _ p Sc), ?(Eerr _ _ Se p), ?(gsc_agree _ _ _ _ _ good p Sc Sa); reflexivity).
  - destruct Hxy as [Tc Te Ta Tb Tp Tx Tg].
    assert (Er : forall p, b_ratio s x good p = b_ratio s' y good p).
    { intros p. unfold b_ratio. rewrite (gsc_agree _ _ _ _ _ good p Sc Sa), (gsc_agree _ _ _ _ _ good p Sc Sb),
        (gsc_agree _ _ _ _ _ good p Tc Ta), (gsc_agree _ _ _ _ _ good p Tc Tb), Sx, Tx. reflexivity. }
    assert (E3 : (map (csum good (s_counts x)) L, map (c_err x good) L, map (b_ratio s x good) L) =
                 (map (csum good (s_counts y)) L, map (c_err y good) L, map (b_ratio s' y good) L)).
    { f_equal; [f_equal|]; apply map_ext; intros p; unfold c_err; auto using csum_agree. }
    f_equal; try exact Em; try (now f_equal); try (apply map_ext; intros p; rewrite ?Emin, ?Emax, ?Sx, ?Hn, ?Er; unfold c_err;
      rewrite ?(csum_agree good _ _ p Sc), ?(Eerr _ _ Se p), ?(gsc_agree _ _ _ _ _ good p Sc Sa),
        ?(csum_agree good _ _ p Tc), ?(Eerr _ _ Te p); reflexivity).
Qed.
