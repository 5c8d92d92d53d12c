(** Segment-wise grouping: the flags built by [group] and the groups they describe
    (lemmas behind C20, C21). *)
From Verif Require Import RBase BaseFacts Grouping Scale ScaleProofs Significance Data DataProofs DataState DataFacts.

(** ** The flags array in compositional form *)
Fixpoint expand (us : list (bool * nat)) (F : list Z) : list Z :=
  match us with
  | [] => []
  | (true, k) :: r => match F with
                      | f :: F' => f :: repeat (-1)%Z (k - 1) ++ expand r F'
                      | [] => repeat (-1)%Z k ++ expand r []
                      end
  | (false, k) :: r => repeat 1%Z k ++ expand r F
  end.
Definition block (f : Z) (k : nat) : list Z := f :: repeat (-1)%Z (k - 1).

Fixpoint idxs (acc : nat) (per : list nat) : list nat :=
  match per with [] => [] | k :: r => acc :: idxs (acc + k) r end.
Lemma idxs_cumsum k per acc : acc :: cumsumN acc (removelast (k :: per)) = idxs acc (k :: per).
Proof.
  revert k acc; induction per as [|j per IH]; intros k acc; [reflexivity|].
  change (removelast (k :: j :: per)) with (k :: removelast (j :: per)). cbn [cumsumN].
  rewrite IH. reflexivity.
Qed.
Lemma idxs_ge acc per x : In x (idxs acc per) -> (acc <= x)%nat.
Proof. revert acc; induction per as [|k per IH]; intros acc H; [destruct H|]. destruct H as [H|H]; [lia|]. apply IH in H. lia. Qed.
Lemma idxs_length acc per : length (idxs acc per) = length per.
Proof. revert acc; induction per as [|k per IH]; intros acc; [reflexivity|]. cbn. now rewrite IH. Qed.

Definition pick (iv : list (nat * Z)) (d : Z) (k : nat) : Z :=
  fold_left (fun acc p => if fst p =? k then snd p else acc) iv d.
Lemma pick_none iv d k : (forall p, In p iv -> fst p <> k) -> pick iv d k = d.
Proof.
  unfold pick. revert d; induction iv as [|p iv IH]; intros d H; [reflexivity|]. cbn [fold_left].
  destruct (Nat.eqb_spec (fst p) k) as [E|E]; [now contradiction (H p (or_introl eq_refl))|].
  apply IH. intros; apply H; now right.
Qed.
Lemma scatter_blocks per : forall acc F, Forall (fun k => 0 < k)%nat per -> length F = length per ->
  map (pick (combine (idxs acc per) F) (-1)%Z) (seq acc (sumN per)) = concat (zip2 block F per).
Proof.
  induction per as [|k per IH]; intros acc [|f F] Hp HF; try discriminate; [reflexivity|].
  inversion Hp as [|? ? Hk Hp']; subst. cbn [idxs combine zip2 concat].
  change (sumN (k :: per)) with (k + sumN per)%nat. rewrite seq_app, map_app. f_equal.
  - destruct k as [|k]; [lia|]. cbn [seq map]. unfold block. rewrite Nat.sub_succ, Nat.sub_0_r. f_equal.
    + unfold pick. cbn [fold_left fst snd]. rewrite Nat.eqb_refl. apply pick_none.
      intros [a z] Hin. apply in_combine_l in Hin. apply idxs_ge in Hin. cbn. lia.
    + assert (H : forall m b, (acc < b)%nat -> (b + m <= acc + S k)%nat ->
         map (pick ((acc, f) :: combine (idxs (acc + S k) per) F) (-1)%Z) (seq b m) = repeat (-1)%Z m).
      { induction m as [|m IHm]; intros b H1 H2; [reflexivity|]. cbn [seq map repeat]. rewrite IHm by lia. f_equal.
        apply pick_none. intros p [<-|Hin]; [cbn; lia|]. destruct p as [a z]. apply in_combine_l in Hin. apply idxs_ge in Hin. cbn. lia. }
      apply H; lia.
  - rewrite <- (IH (acc + k)%nat F Hp' ltac:(now injection HF)). apply map_ext_in. intros x Hx. apply in_seq in Hx.
    unfold pick at 1. cbn [fold_left fst snd]. destruct (Nat.eqb_spec acc x) as [E|E]; [lia|]. reflexivity.
Qed.

Lemma mask_fill_app m1 v1 m2 v2 : length v1 = count_true m1 -> mask_fill (m1 ++ m2) (v1 ++ v2) = mask_fill m1 v1 ++ mask_fill m2 v2.
Proof.
  unfold count_true. revert v1; induction m1 as [|b m1 IH]; intros v1 H; cbn in *; [destruct v1; [reflexivity|discriminate]|].
  destruct b; cbn in *.
  - destruct v1 as [|x v1]; [discriminate|]. cbn. f_equal. apply IH. now injection H.
  - f_equal. now apply IH.
Qed.
Lemma count_true_repeat_t k : count_true (repeat true k) = k.
Proof. unfold count_true. induction k as [|k IH]; [reflexivity|]. cbn. now rewrite IH. Qed.
Lemma mask_fill_true v : forall k, length v = k -> mask_fill (repeat true k) v = v.
Proof. induction v as [|x v IH]; intros k <-; [reflexivity|]. cbn. f_equal. now apply IH. Qed.
Lemma mask_fill_false k m v : mask_fill (repeat false k ++ m) v = repeat 1%Z k ++ mask_fill m v.
Proof. induction k as [|k IH]; [reflexivity|]. cbn. now rewrite IH. Qed.

Lemma expand_fill us : forall F, Forall (fun p => 0 < snd p)%nat us -> length F = count_true (map fst us) ->
  mask_fill (concat (map (fun p => repeat (fst p) (snd p)) us)) (concat (zip2 block F (map snd (filter fst us)))) = expand us F.
Proof.
  induction us as [|[b k] us IH]; intros F Hp HF; [reflexivity|]. inversion Hp as [|? ? Hk Hp']; subst. cbn [snd] in Hk.
  destruct b; cbn [map fst snd concat filter].
  - cbn in HF. destruct F as [|f F]; [discriminate|]. cbn [zip2 concat expand].
    rewrite mask_fill_app.
    2:{ unfold block. cbn [length]. rewrite repeat_length, count_true_repeat_t. lia. }
    rewrite mask_fill_true by (unfold block; cbn [length]; rewrite repeat_length; lia).
    rewrite IH; [reflexivity|exact Hp'|]. now injection HF.
  - cbn [expand]. rewrite mask_fill_false. rewrite IH; auto.
Qed.

Lemma bmask_filter (us : list (bool * nat)) : bmask (map fst us) (map snd us) = map snd (filter fst us).
Proof. apply bmask_map. Qed.

Lemma final_grouping_expand us F : Forall (fun p => 0 < snd p)%nat us ->
  length F = count_true (map fst us) -> F <> [] ->
  final_grouping (map fst us) (map snd us) F = Ok (expand us F).
Proof.
  intros Hp HF Hne. unfold final_grouping. rewrite bmask_filter.
  set (per := map snd (filter fst us)).
  assert (Lp : length per = length F). { unfold per. rewrite map_length, HF. symmetry. apply count_true_map. }
  assert (Pp : Forall (fun k => 0 < k)%nat per).
  { unfold per. apply Forall_forall. intros k Hk. apply in_map_iff in Hk as (p & <- & Hin). apply filter_In in Hin as (Hin & _).
    rewrite Forall_forall in Hp. now apply Hp. }
  destruct per as [|k per'] eqn:E; [destruct F; [congruence|discriminate]|].
  rewrite idxs_cumsum, idxs_length, Lp, Nat.eqb_refl. cbn [negb]. f_equal.
  rewrite zip2_map. rewrite <- (expand_fill us F Hp HF). fold per. rewrite E. f_equal.
  unfold scatter. change (fun k0 : nat => fold_left (fun acc p => if fst p =? k0 then snd p else acc) (combine (idxs 0 (k :: per')) F) (-1)%Z)
    with (pick (combine (idxs 0 (k :: per')) F) (-1)%Z).
  apply scatter_blocks; auto.
Qed.
Lemma final_grouping_ok us F fl : final_grouping (map fst us) (map snd us) F = Ok fl ->
  F <> [] /\ length F = count_true (map fst us).
Proof.
  unfold final_grouping. rewrite bmask_filter. set (per := map snd (filter fst us)).
  destruct per as [|k per'] eqn:E; [discriminate|]. rewrite idxs_cumsum, idxs_length.
  destruct (Nat.eqb_spec (length (k :: per')) (length F)) as [L|]; [|discriminate]. intros _.
  split; [intros ->; discriminate|]. rewrite <- L, <- E. unfold per. rewrite map_length. symmetry. apply count_true_map.
Qed.

(** ** Groups of concatenated flag arrays *)
Lemma ogip_app {A} fl1 : forall fl2 (xs1 xs2 : list A), length fl1 = length xs1 -> (fl2 = [] \/ hd 0%Z fl2 <> (-1)%Z) ->
  ogip (fl1 ++ fl2) (xs1 ++ xs2) = (fst (ogip fl1 xs1), snd (ogip fl1 xs1) ++ snd (ogip fl2 xs2)).
Proof.
  induction fl1 as [|f fl1 IH]; intros fl2 [|x xs1] xs2 HL H2; try discriminate.
  - cbn [app]. destruct H2 as [-> |H2]; [reflexivity|].
    rewrite (surjective_pairing (ogip fl2 xs2)), (no_orphans_hd fl2 xs2 H2). reflexivity.
  - cbn [app ogip]. rewrite IH by (auto; now injection HL). destruct (ogip fl1 xs1) as [pre gs]. cbn [fst snd].
    destruct (f =? -1)%Z; reflexivity.
Qed.
Lemma groups_app {A} fl1 fl2 (xs1 xs2 : list A) : length fl1 = length xs1 -> (fl2 = [] \/ hd 0%Z fl2 <> (-1)%Z) ->
  groups (fl1 ++ fl2) (xs1 ++ xs2) = groups fl1 xs1 ++ groups fl2 xs2.
Proof. intros H1 H2. unfold groups. rewrite ogip_app by assumption. reflexivity. Qed.
Lemma groups_ones {A} (xs : list A) : groups (repeat 1%Z (length xs)) xs = map (fun x => [x]) xs.
Proof.
  unfold groups. induction xs as [|x xs IH]; [reflexivity|]. cbn [length repeat ogip map].
  pose proof (no_orphans_hd (repeat 1%Z (length xs)) xs) as H.
  destruct (ogip (repeat 1%Z (length xs)) xs) as [pre gs]. cbn [fst snd Z.eqb] in *. rewrite IH. f_equal.
  destruct xs as [|y xs]; [cbn in *|].
  - f_equal. apply H. discriminate.
  - f_equal. apply H. discriminate.
Qed.
Lemma ogip_minus {A} (t : list A) fl xs : ogip (repeat (-1)%Z (length t) ++ fl) (t ++ xs) = (t ++ fst (ogip fl xs), snd (ogip fl xs)).
Proof.
  induction t as [|x t IH]; [cbn; now destruct (ogip fl xs)|]. cbn [length repeat app ogip]. rewrite IH. reflexivity.
Qed.

(** ** Units and segments *)
Section Units.
Context {U : Type} (ch : U -> list nat).   (* the channels of a unit (pre-group) *)
Definition chs (us : list U) : list nat := concat (map ch us).
Definition unitsize (u : U) : nat := length (ch u).
Definition exp_u (sel : U -> bool) (us : list U) (F : list Z) : list Z := expand (map (fun u => (sel u, unitsize u)) us) F.

Lemma exp_u_length sel us F : Forall (fun u => ch u <> []) us -> length F = length (filter sel us) ->
  length (exp_u sel us F) = length (chs us).
Proof.
  unfold exp_u, chs. revert F; induction us as [|u us IH]; intros F Hne HF; [reflexivity|].
  inversion Hne as [|? ? Hu Hne']; subst. cbn [map expand concat]. rewrite app_length. cbn [filter] in HF.
  destruct (sel u).
  - destruct F as [|f F]; [discriminate|]. cbn [length]. rewrite app_length, repeat_length, IH; [|assumption|now injection HF].
    unfold unitsize. destruct (ch u); [congruence|]. cbn [length]. lia.
  - rewrite app_length, repeat_length, IH by assumption. reflexivity.
Qed.
Lemma exp_u_app sel us1 us2 F1 F2 : length F1 = length (filter sel us1) ->
  exp_u sel (us1 ++ us2) (F1 ++ F2) = exp_u sel us1 F1 ++ exp_u sel us2 F2.
Proof.
  unfold exp_u. revert F1; induction us1 as [|u us1 IH]; intros F1 HF.
  - destruct F1; [reflexivity|discriminate].
  - cbn [app map expand]. cbn [filter] in HF. destruct (sel u).
    + destruct F1 as [|f F1]; [discriminate|]. cbn [app]. f_equal. rewrite <- app_assoc. f_equal. apply IH. now injection HF.
    + rewrite <- app_assoc. f_equal. now apply IH.
Qed.
Lemma exp_u_none sel us : (forall u, In u us -> sel u = false) -> exp_u sel us [] = repeat 1%Z (length (chs us)).
Proof.
  unfold exp_u, chs. induction us as [|u us IH]; intros H; [reflexivity|]. cbn [map expand concat].
  rewrite (H u (or_introl eq_refl)), IH by (intros; apply H; now right). rewrite app_length, repeat_app. reflexivity.
Qed.
Lemma exp_u_ext sel sel' us F : (forall u, In u us -> sel u = sel' u) -> exp_u sel us F = exp_u sel' us F.
Proof.
  intros H. unfold exp_u. f_equal. apply map_ext_in. intros u Hu. now rewrite H.
Qed.
Lemma filter_none {A} (f : A -> bool) l : (forall x, In x l -> f x = false) -> filter f l = [].
Proof.
  induction l as [|x l IH]; intros H; [reflexivity|]. cbn [filter]. rewrite (H x (or_introl eq_refl)).
  apply IH. intros; apply H; now right.
Qed.
Lemma exp_u_hd sel us F : Forall (fun u => ch u <> []) us -> length F = length (filter sel us) ->
  (F = [] \/ hd 0%Z F <> (-1)%Z) -> exp_u sel us F = [] \/ hd 0%Z (exp_u sel us F) <> (-1)%Z.
Proof.
  intros Hne HF HH. destruct us as [|u us]; [now left|]. right. inversion Hne as [|? ? Hu Hne']; subst.
  unfold exp_u. cbn [map expand]. cbn [filter] in HF. destruct (sel u).
  - destruct F as [|f F]; [discriminate|]. cbn [hd]. destruct HH as [HH|HH]; [discriminate|exact HH].
  - unfold unitsize. destruct (ch u); [congruence|]. cbn. discriminate.
Qed.
(** all units selected: the groups are the unions of the groups of units *)
Lemma exp_u_all us : forall F, Forall (fun u => ch u <> []) us -> length F = length us ->
  ogip (exp_u (fun _ => true) us F) (chs us) = (chs (fst (ogip F us)), map chs (snd (ogip F us))).
Proof.
  unfold exp_u, chs. induction us as [|u us IH]; intros [|f F] Hne HF; try discriminate; [reflexivity|].
  inversion Hne as [|? ? Hu Hne']; subst. cbn [map expand concat]. change (unitsize u) with (length (ch u)).
  specialize (IH F Hne' ltac:(now injection HF)). destruct (ch u) as [|c0 t] eqn:E; [congruence|].
  cbn [length Nat.sub app ogip]. rewrite Nat.sub_0_r. cbn [app]. rewrite ogip_minus, IH. cbn [fst snd].
  destruct (ogip F us) as [pre gs]. cbn [fst snd]. destruct (f =? -1)%Z; cbn [fst snd map concat]; rewrite E; reflexivity.
Qed.

Variables (lo hi : U -> R) (good : U -> bool).
Definition inr (ab : R * R) (u : U) : bool := in_range ab (lo u) (hi u).
Definition sel (er : erange) (u : U) : bool := (existsb (fun ab => inr ab u) er && good u)%bool.
Definition ordered (u v : U) : Prop := lo u <= lo v /\ hi u <= hi v.
Definition units_ok (us : list U) : Prop :=
  StronglySorted ordered us /\ Forall (fun u => ch u <> [] /\ lo u <= hi u) us.

(** the three parts of an ordered list of units relative to an interval *)
Lemma three_parts ab us : units_ok us -> exists A S B, us = A ++ S ++ B /\
  (forall u, In u A -> lo u < fst ab) /\ (forall u, In u S -> inr ab u = true) /\
  (forall u, In u B -> inr ab u = false /\ snd ab < hi u).
Proof.
  intros (Hs & Hf). induction us as [|u us IH].
  - exists [], [], []. split; [reflexivity|]. split; [intros ? []|]. split; intros ? [].
  - inversion Hs as [|? ? Hs' Hu]; subst. inversion Hf as [|? ? Hu' Hf']; subst.
    destruct (IH Hs' Hf') as (A & S & B & E & HA & HS & HB).
    destruct (Rlt_dec (lo u) (fst ab)) as [H1|H1].
    + exists (u :: A), S, B. subst us. split; [reflexivity|]. split; [|auto]. intros v [<-|Hv]; auto.
    + assert (HA0 : A = []).
      { destruct A as [|v A]; [reflexivity|]. exfalso. specialize (HA v (or_introl eq_refl)).
        rewrite Forall_forall in Hu. specialize (Hu v). destruct Hu as (Hl & _); [subst us; now left|]. lra. }
      subst A. destruct (Rle_dec (hi u) (snd ab)) as [H2|H2].
      * exists [], (u :: S), B. subst us. split; [reflexivity|]. split; [intros ? []|]. split; [|exact HB].
        intros v [<-|Hv]; [|auto]. unfold inr, in_range. apply andb_true_iff. rewrite !Rleb_true. lra.
      * exists [], [], (u :: us). split; [reflexivity|]. split; [intros ? []|]. split; [intros ? []|].
        intros v Hv. assert (Hh : snd ab < hi v).
        { destruct Hv as [<-|Hv]; [lra|]. rewrite Forall_forall in Hu. destruct (Hu v Hv). lra. }
        split; [|exact Hh]. unfold inr, in_range. apply andb_false_iff. right. apply Rleb_false. exact Hh.
Qed.

Definition flags_fit (us : list U) (ab : R * R) (F : list Z) : Prop :=
  length F = length (filter (fun u => inr ab u && good u)%bool us) /\ (F = [] \/ hd 0%Z F <> (-1)%Z).

Lemma units_ok_app us1 us2 : units_ok (us1 ++ us2) -> units_ok us1 /\ units_ok us2.
Proof.
  intros (Hs & Hf). apply Forall_app in Hf as (F1 & F2).
  assert (H : StronglySorted ordered us1 /\ StronglySorted ordered us2).
  { clear F1 F2. induction us1 as [|u us1 IH]; [split; [constructor|exact Hs]|]. cbn [app] in Hs.
    inversion Hs as [|? ? Hs' Hu]; subst. apply Forall_app in Hu as (Hu & _). destruct (IH Hs'). split; [now constructor|assumption]. }
  destruct H. repeat split; assumption.
Qed.

(** one interval peeled off *)
Lemma peel ab er us F Fs : units_ok us -> fst ab < snd ab -> Forall (before ab) er ->
  flags_fit us ab F -> Forall2 (flags_fit us) er Fs ->
  exists A S B, us = A ++ S ++ B /\
    (forall u, In u A -> existsb (fun ab' => inr ab' u) (ab :: er) = false) /\
    (forall u, In u S -> inr ab u = true) /\
    (forall u, In u B -> inr ab u = false) /\
    flags_fit S ab F /\ Forall2 (flags_fit B) er Fs /\
    length F = length (filter good S) /\
    exp_u (sel (ab :: er)) us (F ++ concat Fs) =
      repeat 1%Z (length (chs A)) ++ exp_u good S F ++ exp_u (sel er) B (concat Fs).
Proof.
  intros Hok Hab Hb HF HFs. destruct (three_parts ab us Hok) as (A & S & B & E & HA & HS & HB).
  assert (Hout : forall u, In u A \/ In u S -> forall ab', In ab' er -> inr ab' u = false).
  { intros u Hu ab' Hab'. rewrite Forall_forall in Hb. specialize (Hb ab' Hab'). unfold before in Hb.
    unfold inr, in_range. apply andb_false_iff. left. apply Rleb_false.
    destruct Hok as (_ & Hf). rewrite Forall_forall in Hf.
    assert (Hin : In u us) by (subst us; rewrite !in_app_iff; tauto). destruct (Hf u Hin) as (_ & Hlh).
    destruct Hu as [Hu|Hu].
    - specialize (HA u Hu). lra.
    - specialize (HS u Hu). unfold inr, in_range in HS. apply andb_true_iff in HS. rewrite !Rleb_true in HS. lra. }
  assert (HAn : forall u, In u A -> existsb (fun ab' => inr ab' u) (ab :: er) = false).
  { intros u Hu. cbn [existsb]. apply orb_false_iff. split.
    - unfold inr, in_range. apply andb_false_iff. left. apply Rleb_false. now apply HA.
    - destruct (existsb _ er) eqn:X; [|reflexivity]. apply existsb_exists in X as (ab' & H1 & H2).
      rewrite (Hout u (or_introl Hu) ab' H1) in H2. discriminate. }
  assert (HAab : forall u, In u A -> inr ab u = false).
  { intros u Hu. specialize (HAn u Hu). cbn [existsb] in HAn. now apply orb_false_iff in HAn. }
  assert (HFS : filter (fun u => inr ab u && good u)%bool us = filter good S).
  { subst us. rewrite !filter_app, (filter_none _ A), (filter_none _ B), app_nil_r.
    - cbn [app]. apply filter_ext_len. intros u Hu. now rewrite (HS u Hu).
    - intros u Hu. now rewrite (proj1 (HB u Hu)).
    - intros u Hu. now rewrite (HAab u Hu). }
  assert (HfitS : flags_fit S ab F).
  { destruct HF as (L & Hh). split; [|exact Hh]. rewrite L, HFS. f_equal. apply filter_ext_len.
    intros u Hu. now rewrite (HS u Hu). }
  assert (HFsB : Forall2 (flags_fit B) er Fs).
  { assert (K : forall er' Fs', (forall ab', In ab' er' -> In ab' er) -> Forall2 (flags_fit us) er' Fs' -> Forall2 (flags_fit B) er' Fs').
    { intros er' Fs' Hsub H2. induction H2 as [|ab' F' er' Fs' H1 H2 IH]; [constructor|]. constructor.
      - destruct H1 as (L & Hh). split; [|exact Hh]. rewrite L. subst us. rewrite !filter_app.
        rewrite (filter_none _ A), (filter_none _ S); [reflexivity| |].
        + intros u Hu. now rewrite (Hout u (or_intror Hu) ab' (Hsub ab' (or_introl eq_refl))).
        + intros u Hu. now rewrite (Hout u (or_introl Hu) ab' (Hsub ab' (or_introl eq_refl))).
      - apply IH. intros; apply Hsub; now right. }
    apply (K er Fs); auto. }
  assert (LFS : length F = length (filter good S)) by (destruct HF as (L & _); now rewrite L, HFS).
  exists A, S, B. split; [exact E|]. split; [exact HAn|]. split; [exact HS|]. split; [intros u Hu; apply (HB u Hu)|].
  split; [exact HfitS|]. split; [exact HFsB|]. split; [exact LFS|].
  subst us. change (F ++ concat Fs) with ([] ++ (F ++ concat Fs)).
  assert (HselA : forall u, In u A -> sel (ab :: er) u = false).
  { intros u Hu. unfold sel. now rewrite (HAn u Hu). }
  assert (HselS : forall u, In u S -> sel (ab :: er) u = good u).
  { intros u Hu. unfold sel. cbn [existsb]. now rewrite (HS u Hu). }
  assert (HselB : forall u, In u B -> sel (ab :: er) u = sel er u).
  { intros u Hu. unfold sel. cbn [existsb]. now rewrite (proj1 (HB u Hu)). }
  rewrite exp_u_app by (now rewrite (filter_none _ A HselA)).
  rewrite exp_u_none by exact HselA. f_equal.
  rewrite exp_u_app by (rewrite LFS; f_equal; apply filter_ext_len; intros; symmetry; now apply HselS).
  f_equal; apply exp_u_ext; assumption.
Qed.

Lemma flags_fit_hd us er Fs : Forall2 (flags_fit us) er Fs -> concat Fs = [] \/ hd 0%Z (concat Fs) <> (-1)%Z.
Proof.
  induction 1 as [|ab F er Fs (_ & H1) H2 IH]; [now left|]. cbn [concat].
  destruct F as [|f F]; [exact IH|]. right. destruct H1 as [H1|H1]; [discriminate|exact H1].
Qed.
Lemma ordered_prefix us1 us2 us3 : units_ok (us1 ++ us2 ++ us3) -> units_ok us2 /\ units_ok us3.
Proof. intros H. apply units_ok_app in H as (_ & H). now apply units_ok_app in H. Qed.
Lemma groups_incl {A} fl (xs : list A) g x : length fl = length xs -> In g (groups fl xs) -> In x g -> In x xs.
Proof. apply In_groups_in. Qed.

(** every group of the final flags: a single channel, or a group inside one interval *)
Lemma groups_segments er : forall us Fs, units_ok us -> Forall (fun ab => fst ab < snd ab) er ->
  StronglySorted before er -> Forall2 (flags_fit us) er Fs ->
  length (exp_u (sel er) us (concat Fs)) = length (chs us) /\
  (exp_u (sel er) us (concat Fs) = [] \/ hd 0%Z (exp_u (sel er) us (concat Fs)) <> (-1)%Z) /\
  (forall g, In g (groups (exp_u (sel er) us (concat Fs)) (chs us)) ->
     (exists c, g = [c]) \/
     exists ab, In ab er /\ forall c, In c g -> exists u, In u us /\ inr ab u = true /\ In c (ch u)) /\
  ((forall u ab, In u us -> In ab er -> inr ab u = true -> good u = true) ->
   forall g, In g (groups (exp_u (sel er) us (concat Fs)) (chs us)) ->
     (exists u c, In u us /\ In c (ch u) /\ g = [c] /\ forall ab, In ab er -> inr ab u = false) \/
     exists ab F us', In (ab, F) (combine er Fs) /\ In us' (groups F (filter (fun u => inr ab u && good u)%bool us)) /\ g = chs us').
Proof.
  induction er as [|ab er IH]; intros us Fs Hok Hlt Hs HF.
  - inversion HF; subst. cbn [concat].
    assert (Hn : forall u, In u us -> sel [] u = false) by reflexivity.
    rewrite (exp_u_none _ us Hn). split; [apply repeat_length|]. split.
    { destruct (length (chs us)); [now left|right; cbn; discriminate]. }
    rewrite groups_ones. split.
    + intros g Hg. apply in_map_iff in Hg as (c & <- & _). left. now exists c.
    + intros _ g Hg. apply in_map_iff in Hg as (c & <- & Hc). left. unfold chs in Hc.
      apply in_concat in Hc as (l & Hl & Hc). apply in_map_iff in Hl as (u & <- & Hu). exists u, c.
      repeat split; auto. intros ? [].
  - inversion HF as [|? F ? Fs' HF1 HF2]; subst. inversion Hlt as [|? ? Hab Hlt']; subst. inversion Hs as [|? ? Hs' Hb]; subst.
    destruct (peel ab er us F Fs' Hok Hab Hb HF1 HF2) as (A & S & B & E & HA & HS & HB & FS & FB & LFS & EX).
    assert (HokS : units_ok S /\ units_ok B) by (rewrite E in Hok; now apply (ordered_prefix A)). destruct HokS as (OkS & OkB).
    assert (NeS : Forall (fun u => ch u <> []) S) by (destruct OkS as (_ & H); eapply Forall_impl; [|exact H]; intros u Hu; apply Hu).
    assert (NeB : Forall (fun u => ch u <> []) B) by (destruct OkB as (_ & H); eapply Forall_impl; [|exact H]; intros u Hu; apply Hu).
    destruct (IH B Fs' OkB Hlt' Hs' FB) as (L & Hh & G1 & G2).
    cbn [concat]. rewrite EX.
    assert (Lmid : length (exp_u good S F) = length (chs S)) by (apply exp_u_length; [exact NeS|exact LFS]).
    assert (Hmid : exp_u good S F = [] \/ hd 0%Z (exp_u good S F) <> (-1)%Z).
    { apply exp_u_hd; [exact NeS|exact LFS|apply HF1]. }
    assert (Hmb : exp_u good S F ++ exp_u (sel er) B (concat Fs') = [] \/
                  hd 0%Z (exp_u good S F ++ exp_u (sel er) B (concat Fs')) <> (-1)%Z).
    { destruct (exp_u good S F) as [|f l]; [exact Hh|]. right. destruct Hmid as [X|X]; [discriminate|exact X]. }
    assert (Ech : chs us = chs A ++ chs S ++ chs B) by (rewrite E; unfold chs; now rewrite !map_app, !concat_app).
    assert (Hin : forall u, In u A \/ In u S \/ In u B -> In u us) by (intros u Hu; rewrite E, !in_app_iff; tauto).
    rewrite Ech. split; [rewrite !app_length, repeat_length; lia|]. split.
    { destruct (chs A); cbn [length repeat app]; [exact Hmb|right; cbn; discriminate]. }
    assert (Eg : groups (repeat 1%Z (length (chs A)) ++ exp_u good S F ++ exp_u (sel er) B (concat Fs')) (chs A ++ chs S ++ chs B)
       = map (fun c => [c]) (chs A) ++ groups (exp_u good S F) (chs S) ++ groups (exp_u (sel er) B (concat Fs')) (chs B)).
    { rewrite groups_app by (rewrite ?repeat_length; auto). rewrite groups_ones.
      rewrite groups_app by auto. reflexivity. }
    rewrite Eg. split.
    + intros g Hg. apply in_app_iff in Hg as [Hg|Hg]; [|apply in_app_iff in Hg as [Hg|Hg]].
      * apply in_map_iff in Hg as (c & <- & _). left. now exists c.
      * right. exists ab. split; [now left|]. intros c Hc. pose proof (groups_incl _ _ _ _ Lmid Hg Hc) as Hin'.
        unfold chs in Hin'. apply in_concat in Hin' as (l & Hl & Hc'). apply in_map_iff in Hl as (u & <- & Hu).
        exists u. split; [apply Hin; tauto|]. split; [now apply HS|exact Hc'].
      * destruct (G1 g Hg) as [X|(ab' & X1 & X2)]; [now left|]. right. exists ab'. split; [now right|].
        intros c Hc. destruct (X2 c Hc) as (u & Hu & X3). exists u. split; [apply Hin; tauto|exact X3].
    + intros Hgood g Hg. apply in_app_iff in Hg as [Hg|Hg]; [|apply in_app_iff in Hg as [Hg|Hg]].
      * apply in_map_iff in Hg as (c & <- & Hc). left. unfold chs in Hc. apply in_concat in Hc as (l & Hl & Hc).
        apply in_map_iff in Hl as (u & <- & Hu). exists u, c. split; [apply Hin; tauto|]. split; [exact Hc|]. split; [reflexivity|].
        intros ab' Hab'. specialize (HA u Hu). destruct (inr ab' u) eqn:X; [|reflexivity].
        assert (existsb (fun ab0 => inr ab0 u) (ab :: er) = true) by (apply existsb_exists; eauto). congruence.
      * right. assert (GS : forall u, In u S -> good u = true).
        { intros u Hu. apply (Hgood u ab); [apply Hin; tauto|now left|now apply HS]. }
        assert (EF : filter (fun u => inr ab u && good u)%bool us = S).
        { rewrite E, !filter_app, (filter_none _ A), (filter_none _ B), app_nil_r.
          - cbn [app]. transitivity (filter (fun _ => true) S).
            + apply filter_ext_len. intros u Hu. now rewrite (HS u Hu), (GS u Hu).
            + clear. induction S as [|x S IH]; [reflexivity|]. cbn. now rewrite IH.
          - intros u Hu. now rewrite (HB u Hu).
          - intros u Hu. specialize (HA u Hu). cbn [existsb] in HA. apply orb_false_iff in HA as (HA & _). now rewrite HA. }
        assert (LFall : length F = length S) by (destruct HF1 as (LF & _); now rewrite LF, EF).
        rewrite (exp_u_ext good (fun _ => true) S F) in Hg by exact GS.
        unfold groups in Hg. rewrite exp_u_all in Hg by assumption. cbn [snd] in Hg.
        apply in_map_iff in Hg as (us' & <- & Hg). exists ab, F, us'. split; [now left|]. rewrite EF. split; [exact Hg|reflexivity].
      * assert (Hgood' : forall u ab0, In u B -> In ab0 er -> inr ab0 u = true -> good u = true).
        { intros u ab0 Hu Hab0 X. apply (Hgood u ab0); [apply Hin; tauto|now right|exact X]. }
        destruct (G2 Hgood' g Hg) as [(u & c & X1 & X2 & X3 & X4)|(ab' & F' & us' & X1 & X2 & X3)].
        -- left. exists u, c. split; [apply Hin; tauto|]. split; [exact X2|]. split; [exact X3|].
           intros ab' [<-|Hab']; [now apply HB|now apply X4].
        -- right. exists ab', F', us'. split; [now right|]. split; [|exact X3].
           assert (EF : filter (fun u => inr ab' u && good u)%bool us = filter (fun u => inr ab' u && good u)%bool B).
           { apply in_combine_l in X1. rewrite E, !filter_app, (filter_none _ A), (filter_none _ S); [reflexivity| |].
             - intros u Hu. rewrite Forall_forall in Hb. specialize (Hb ab' X1). unfold before in Hb.
               specialize (HS u Hu). destruct OkS as (_ & Ho). rewrite Forall_forall in Ho. destruct (Ho u Hu) as (_ & Hle).
               unfold inr, in_range in *. apply andb_true_iff in HS. rewrite !Rleb_true in HS.
               apply andb_false_iff. left. apply andb_false_iff. left. apply Rleb_false. lra.
             - intros u Hu. specialize (HA u Hu). destruct (inr ab' u) eqn:X; [|reflexivity].
               assert (existsb (fun ab0 => inr ab0 u) (ab :: er) = true) by (apply existsb_exists; exists ab'; split; [now right|exact X]). congruence. }
           rewrite EF. exact X2.
Qed.
End Units.
