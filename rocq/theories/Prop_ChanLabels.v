(** C100: channel labels identify the noticed channels of a fit. *)
From Coq Require Import Ascii String.
From Verif Require Import Base BaseFacts Namespace NamespaceProofs ChanLabels.
From Coq Require Import List ZArith Lia Permutation.
Import ListNotations.
Open Scope list_scope.

(** ** Specification *)
Definition plus : ascii := "+"%char.
(** raw labels of a response: distinct and without the character that joins them *)
Definition raw_ok (raw : list str) : Prop := NoDup raw /\ Forall (fun l => ~ In plus l) raw.
Definition plain (s : str) : Prop := ~ In underscore s.

(** ** Lemmas *)
Lemma bmask_filter {A} (m : list bool) : forall xs : list A, List.length m = List.length xs ->
  bmask m xs = map fst (filter snd (combine xs m)).
Proof.
  induction m as [|b m IH]; intros [|x xs] H; cbn in H; try discriminate; [reflexivity|].
  cbn. injection H as H. destruct b; cbn; rewrite IH by exact H; reflexivity.
Qed.
Lemma slice_combine {A B} (a : list A) (b : list B) i j :
  slice i j (combine a b) = combine (slice i j a) (slice i j b).
Proof.
  unfold slice. rewrite <- combine_firstn. f_equal. revert a b. induction i as [|i IH]; intros a b; [reflexivity|].
  destruct a as [|x a]; [reflexivity|]. destruct b as [|y b]; [|apply IH].
  cbn. destruct (skipn i a); reflexivity.
Qed.
Lemma bmask_in {A} (m : list bool) : forall (xs : list A) x, In x (bmask m xs) -> In x xs.
Proof. induction m as [|[] m IH]; intros [|y xs] x H; cbn in *; try easy; [destruct H; auto|auto]. Qed.
Lemma bmask_nodup {A} (m : list bool) : forall xs : list A, NoDup xs -> NoDup (bmask m xs).
Proof.
  induction m as [|[] m IH]; intros [|x xs] H; cbn; try constructor; inversion H; subst; auto.
  intros K. apply bmask_in in K. contradiction.
Qed.

Lemma join_plus_inj l : forall l', l <> [] -> l' <> [] -> Forall (fun x => ~ In plus x) l -> Forall (fun x => ~ In plus x) l' ->
  join_plus l = join_plus l' -> l = l'.
Proof.
  induction l as [|x l IH]; intros [|y l'] N N' F F' E; try easy. inversion F as [|? ? Hx Fl]; inversion F' as [|? ? Hy Fl']; subst.
  destruct l as [|x2 l]; destruct l' as [|y2 l'].
  - cbn in E. now subst.
  - change (join_plus [x]) with x in E. change (join_plus (y :: y2 :: l')) with (y ++ plus :: join_plus (y2 :: l')) in E.
    exfalso. apply Hx. rewrite E. apply in_or_app. right. now left.
  - change (join_plus [y]) with y in E. change (join_plus (x :: x2 :: l)) with (x ++ plus :: join_plus (x2 :: l)) in E.
    exfalso. apply Hy. rewrite <- E. apply in_or_app. right. now left.
  - change (join_plus (x :: x2 :: l)) with (x ++ plus :: join_plus (x2 :: l)) in E.
    change (join_plus (y :: y2 :: l')) with (y ++ plus :: join_plus (y2 :: l')) in E.
    apply split_first in E as (-> & E); try assumption. f_equal. apply IH; try easy.
Qed.

(** labels of the groups that have a good channel are distinct *)
Lemma joined_nodup (gs : list (list (str * bool))) : forall m,
  NoDup (map fst (concat gs)) -> Forall (fun p => ~ In plus (fst p)) (concat gs) ->
  NoDup (bmask (and2 m (map (fun g => existsb (fun b => b) (map snd g)) gs)) (map (fun g => join_plus (map fst (filter snd g))) gs)).
Proof.
  induction gs as [|g gs IH]; intros [|b m] N F; cbn; try constructor.
  cbn [concat] in N, F. rewrite map_app in N. rewrite Forall_app in F. destruct F as (Fg & Fs).
  assert (N2 : NoDup (map fst (concat gs))).
  { clear -N. revert N. generalize (map fst g) as l. induction l as [|x l IHl]; intros N; [exact N|]. inversion N. auto. }
  assert (D : forall x, In x (map fst g) -> In x (map fst (concat gs)) -> False).
  { clear -N. revert N. generalize (map fst g) (map fst (concat gs)). intros l k. induction l as [|a l IHl]; intros N x H H'; [easy|].
    inversion N; subst. destruct H as [->|H]; [|eauto]. apply H2. apply in_or_app. now right. }
  specialize (IH m N2 Fs).
  destruct (existsb (fun b0 => b0) (map snd g)) eqn:Eg; destruct b; cbn [andb]; try exact IH. constructor; [|exact IH].
  intros K.
  (* some later kept group has the same joined label *)
  assert (Hex : exists h, In h gs /\ existsb (fun b0 => b0) (map snd h) = true /\ join_plus (map fst (filter snd h)) = join_plus (map fst (filter snd g))).
  { clear - K. revert m K. induction gs as [|h gs IH]; intros [|b m] K; cbn in K; try easy.
    destruct (existsb (fun b0 => b0) (map snd h)) eqn:Eh; destruct b; cbn [andb] in K.
    - destruct K as [K|K]; [exists h; split; [now left|]; split; assumption|]. destruct (IH m K) as (h' & H1 & H2). exists h'. split; [now right|exact H2].
    - destruct (IH m K) as (h' & H1 & H2). exists h'. split; [now right|exact H2].
    - destruct (IH m K) as (h' & H1 & H2). exists h'. split; [now right|exact H2].
    - destruct (IH m K) as (h' & H1 & H2). exists h'. split; [now right|exact H2]. }
  destruct Hex as (h & Hh & Eh & E).
  assert (NE : forall g : list (str * bool), existsb (fun b0 => b0) (map snd g) = true -> map fst (filter snd g) <> []).
  { clear. intros g H. apply existsb_exists in H as (b & Hb & ->). apply in_map_iff in Hb as ((s, b) & Eb & Hb). cbn in Eb. subst b.
    assert (X : In (s, true) (filter snd g)) by (apply filter_In; auto). intros Z. destruct (filter snd g) as [|q r]; [easy|discriminate]. }
  assert (FF : forall g, Forall (fun p : str * bool => ~ In plus (fst p)) g -> Forall (fun x => ~ In plus x) (map fst (filter snd g))).
  { clear. intros g H. rewrite Forall_forall in *. intros x Hx. apply in_map_iff in Hx as (p & <- & Hp). apply filter_In in Hp as (Hp & _). auto. }
  assert (Fh : Forall (fun p : str * bool => ~ In plus (fst p)) h).
  { rewrite Forall_forall in *. intros p Hp. apply Fs. apply in_concat. now exists h. }
  apply join_plus_inj in E; auto.
  pose proof (NE g Eg) as Ng. destruct (map fst (filter snd g)) as [|x r] eqn:Ex; [easy|].
  assert (Hx : In x (map fst (filter snd g))) by (rewrite Ex; now left).
  assert (Hx' : In x (map fst (filter snd h))) by (rewrite E; now left).
  apply in_map_iff in Hx as (p & Ep & Hp). apply filter_In in Hp as (Hp & _).
  apply in_map_iff in Hx' as (p' & Ep' & Hp'). apply filter_In in Hp' as (Hp' & _).
  apply (D x); [rewrite <- Ep; now apply in_map|]. rewrite <- Ep'. apply in_map. apply in_concat. now exists h.
Qed.

Lemma map_nodup_inj {A B} (f : A -> B) l : (forall x y, In x l -> In y l -> f x = f y -> x = y) -> NoDup l -> NoDup (map f l).
Proof.
  induction l as [|x l IH]; intros H N; cbn; constructor; inversion N; subst.
  - intros K. apply in_map_iff in K as (y & E & Hy). apply H in E; [|now right|now left]. subst. contradiction.
  - apply IH; [|assumption]. intros; apply H; auto; now right.
Qed.
Lemma bmask_map {A B} (f : A -> B) m : forall xs, bmask m (map f xs) = map f (bmask m xs).
Proof. induction m as [|[] m IH]; intros [|x xs]; cbn; try reflexivity; now rewrite IH. Qed.
Lemma full_label_inj name ctype a b : full_label name ctype a = full_label name ctype b -> a = b.
Proof.
  unfold full_label. intros H. apply app_inv_head in H. injection H as H. apply app_inv_head in H. now injection H as H.
Qed.

(** group the labels and the flags *)
Lemma grouped raw fl q : List.length fl = List.length raw -> List.length q = List.length raw ->
  map (fun p => join_plus (bmask (slice (fst p) (snd p) q) (slice (fst p) (snd p) raw))) (pairs (starts fl) (List.length raw)) =
    map (fun g => join_plus (map fst (filter snd g))) (groups fl (combine raw q)) /\
  good_groups fl q = map (fun g => existsb (fun b => b) (map snd g)) (groups fl (combine raw q)).
Proof.
  intros H1 H2. assert (Hc : List.length fl = List.length (combine raw q)) by (rewrite combine_length; lia).
  rewrite groups_reduceat by exact Hc. unfold reduceat, good_groups. rewrite !map_map, combine_length, H2, Nat.min_id.
  assert (L : forall p : nat * nat, List.length (slice (fst p) (snd p) q) = List.length (slice (fst p) (snd p) raw)).
  { intros p. unfold slice. now rewrite !firstn_length, !skipn_length, H2. }
  split; apply map_ext; intros p; rewrite slice_combine.
  - f_equal. now rewrite bmask_filter.
  - f_equal. specialize (L p). revert L. generalize (slice (fst p) (snd p) q) as a. generalize (slice (fst p) (snd p) raw) as b.
    induction b as [|x b IH]; intros [|y a] L; cbn in *; try discriminate; [reflexivity|]. injection L as L. now rewrite <- IH.
Qed.

Lemma nodup_tail {A} (a b : list A) : NoDup (a ++ b) -> NoDup b.
Proof. induction a; cbn; intros H; [exact H|]. inversion H; auto. Qed.

(** ** Theorems *)
(** one observation: its noticed channels have distinct labels, whatever the flags, the
    bad channels and the noticed ranges *)
Theorem C100_unique : forall name ctype raw fl q keep mask ls,
  chan_labels name ctype raw fl q keep mask = Ok ls -> raw_ok raw -> NoDup ls.
Proof.
  intros name ctype raw fl q keep mask ls H (Nr & Fr). unfold chan_labels in H.
  destruct (group_labels raw fl (Some q) keep) as [gl|] eqn:G; [|discriminate]. cbn [bind] in H. injection H as <-.
  rewrite bmask_map. apply map_nodup_inj; [intros; eapply full_label_inj; eassumption|].
  unfold group_labels in G.
  destruct (Nat.eqb_spec (List.length fl) (List.length raw)) as [H1|]; [|discriminate].
  destruct (Nat.eqb_spec (List.length q) (List.length raw)) as [H2|]; [|discriminate]. cbn [negb] in G.
  destruct (Nat.eqb_spec (List.length (starts fl)) (List.length raw)) as [H3|H3].
  { injection G as <-. now apply bmask_nodup. }
  destruct (starts fl) as [|i0 idx0] eqn:Es.
  { injection G as <-. destruct (and2 mask (good_groups fl q)); [constructor|]. destruct b; constructor. }
  rewrite <- Es in *. clear Es.
  destruct keep; injection G as <-.
  - destruct (grouped raw fl q H1 H2) as (E1 & E2). rewrite E1, E2.
    assert (Hc : List.length fl = List.length (combine raw q)) by (rewrite combine_length; lia).
    pose proof (groups_concat fl (combine raw q) Hc) as GC.
    assert (MF : map fst (combine raw q) = raw).
    { clear -H2. revert raw H2. induction q as [|y q IH]; intros [|x raw] H; cbn in *; try discriminate; [reflexivity|]. injection H as H. now rewrite IH. }
    apply joined_nodup.
    + rewrite <- MF, <- GC, map_app in Nr. now apply nodup_tail in Nr.
    + assert (X : Forall (fun p : str * bool => ~ In plus (fst p)) (combine raw q)).
      { rewrite Forall_forall in *. intros p Hp. apply Fr. rewrite <- MF. now apply in_map. }
      rewrite <- GC, Forall_app in X. apply X.
  - apply bmask_nodup. apply map_nodup_inj; [intros; now apply nat_str_inj|apply seq_NoDup].
Qed.
Print Assumptions C100_unique.

(** a label is the name of the observation, the channel type, and the number of the
    group or the labels of the good channels in it *)
Theorem C100_form : forall name ctype raw fl q keep mask ls, List.length mask = List.length (starts fl) ->
  chan_labels name ctype raw fl q keep mask = Ok ls ->
  List.length (starts fl) <> List.length raw ->
  ls = map (fun k => full_label name ctype
              (if keep then join_plus (map fst (filter snd (nth k (groups fl (combine raw q)) []))) else nat_str k))
           (filter (fun k => (nth k mask false && existsb snd (nth k (groups fl (combine raw q)) []))%bool) (seq 0 (List.length (starts fl)))).
Proof.
  intros name ctype raw fl q keep mask ls Lm H N3. unfold chan_labels in H.
  destruct (group_labels raw fl (Some q) keep) as [gl|] eqn:G; [|discriminate]. cbn [bind] in H. injection H as <-.
  unfold group_labels in G.
  destruct (Nat.eqb_spec (List.length fl) (List.length raw)) as [H1|]; [|discriminate].
  destruct (Nat.eqb_spec (List.length q) (List.length raw)) as [H2|]; [|discriminate]. cbn [negb] in G.
  destruct (Nat.eqb_spec (List.length (starts fl)) (List.length raw)) as [H3|_]; [contradiction|].
  destruct (grouped raw fl q H1 H2) as (E1 & E2).
  assert (Hc : List.length fl = List.length (combine raw q)) by (rewrite combine_length; lia).
  pose proof (groups_length fl (combine raw q) Hc) as Lg.
  assert (Hgl : gl = map (fun k => if keep then join_plus (map fst (filter snd (nth k (groups fl (combine raw q)) []))) else nat_str k) (seq 0 (List.length (starts fl)))).
  { destruct keep.
    - assert (X : gl = map (fun g => join_plus (map fst (filter snd g))) (groups fl (combine raw q))).
      { destruct (starts fl) as [|i0 r] eqn:Es; [|injection G as <-; exact E1]. injection G as <-.
        destruct (groups fl (combine raw q)); [reflexivity|discriminate]. }
      rewrite X, <- Lg. set (gs := groups fl (combine raw q)). clearbody gs. clear.
      apply nth_ext with (d := join_plus (map fst (filter snd []))) (d' := join_plus (map fst (filter snd (nth 0 gs [])))); [now rewrite !map_length, seq_length|].
      intros i Hi. rewrite map_length in Hi. rewrite (map_nth (fun g => join_plus (map fst (filter snd g)))).
      rewrite (map_nth (fun k => join_plus (map fst (filter snd (nth k gs [])))) (seq 0 (List.length gs)) 0%nat i). now rewrite seq_nth.
    - destruct (starts fl) as [|i0 r]; injection G as <-; reflexivity. }
  rewrite Hgl, map_map. rewrite bmask_map. f_equal. rewrite E2.
  assert (B : forall (gs : list (list (str * bool))) m k, List.length m = List.length gs ->
    bmask (and2 m (map (fun g => existsb (fun b => b) (map snd g)) gs)) (seq k (List.length gs)) =
    filter (fun i => (nth (i - k) m false && existsb snd (nth (i - k) gs []))%bool) (seq k (List.length gs))).
  { clear. assert (Q : forall g : list (str * bool), existsb (fun b => b) (map snd g) = existsb snd g) by (induction g as [|p g IH]; cbn; congruence).
    induction gs as [|g gs IH]; intros [|b m] k H; cbn in H; try discriminate; [reflexivity|]. injection H as H.
    cbn [List.length seq map and2 bmask filter]. rewrite Q.
    assert (R : filter (fun i => (nth (i - k) (b :: m) false && existsb snd (nth (i - k) (g :: gs) []))%bool) (seq (S k) (List.length gs)) =
      filter (fun i => (nth (i - S k) m false && existsb snd (nth (i - S k) gs []))%bool) (seq (S k) (List.length gs))).
    { apply filter_ext_in. intros i Hi. apply in_seq in Hi. replace (i - k)%nat with (S (i - S k)) by lia. reflexivity. }
    rewrite R, <- IH by exact H. rewrite Nat.sub_diag. change (nth 0 (b :: m) false) with b. change (nth 0 (g :: gs) []) with g. destruct (b && existsb snd g)%bool; reflexivity. }
  rewrite <- Lg. rewrite (B _ mask 0%nat) by congruence. apply filter_ext. intros i. now rewrite Nat.sub_0_r.
Qed.
Print Assumptions C100_form.

(** all data sets of a fit *)
Record dset := { d_name : str; d_type : str; d_raw : list str; d_fl : list Z; d_q : list bool; d_keep : bool; d_mask : list bool; d_labels : list str }.
Definition made (d : dset) : Prop := chan_labels (d_name d) (d_type d) (d_raw d) (d_fl d) (d_q d) (d_keep d) (d_mask d) = Ok (d_labels d).

Lemma labels_shape d x : made d -> In x (d_labels d) -> Forall plain (d_raw d) ->
  exists l, plain l /\ x = full_label (d_name d) (d_type d) l.
Proof.
  intros H Hx F. unfold made, chan_labels in H.
  destruct (group_labels (d_raw d) (d_fl d) (Some (d_q d)) (d_keep d)) as [gl|] eqn:G; [|discriminate]. cbn [bind] in H. injection H as H.
  rewrite <- H in Hx. apply bmask_in in Hx. apply in_map_iff in Hx as (l & <- & Hl). exists l. split; [|reflexivity].
  unfold group_labels in G. destruct (negb _); [discriminate|]. destruct (negb _); [discriminate|].
  destruct (Nat.eqb _ _); [injection G as <-; rewrite Forall_forall in F; auto|].
  destruct (starts (d_fl d)) as [|i0 r] eqn:Es; [injection G as <-; easy|]. rewrite <- Es in *. clear Es.
  destruct (d_keep d); injection G as <-; apply in_map_iff in Hl as (p & <- & Hp).
  - assert (FF : Forall plain (bmask (slice (fst p) (snd p) (d_q d)) (slice (fst p) (snd p) (d_raw d)))).
    { rewrite Forall_forall. intros y Hy. apply bmask_in in Hy. pose proof (Forall_slice plain (d_raw d) (fst p) (snd p) F) as FS. rewrite Forall_forall in FS. auto. }
    revert FF. generalize (bmask (slice (fst p) (snd p) (d_q d)) (slice (fst p) (snd p) (d_raw d))). intros js FF. clear -FF. unfold plain in *.
    induction js as [|a js IH]; [easy|]. inversion FF; subst. destruct js as [|b js]; [exact H1|].
    change (join_plus (a :: b :: js)) with (a ++ plus :: join_plus (b :: js)). intros K. apply in_app_or in K as [K|[K|K]]; [contradiction|discriminate|]. now apply IH.
  - unfold plain, nat_str. apply digit_not. apply under_not_digit.
Qed.

(** labels of different data sets never agree, if neither the channel types nor the raw
    labels contain an underscore *)
Theorem C100_across : forall ds, NoDup (map d_name ds) ->
  Forall (fun d => made d /\ raw_ok (d_raw d) /\ Forall plain (d_raw d) /\ plain (d_type d)) ds ->
  NoDup (all_labels (map d_labels ds)).
Proof.
  intros ds N F. unfold all_labels. induction ds as [|d ds IH]; [constructor|]. cbn.
  inversion F as [|? ? (M & R & P & T) Fs]; subst. inversion N as [|? ? Nd Ns]; subst.
  apply NoDup_app_disj; [eapply C100_unique; eassumption|now apply IH|].
  intros x Hx Hx'. apply in_concat in Hx' as (ls & Hls & Hx'). apply in_map_iff in Hls as (d' & <- & Hd').
  rewrite Forall_forall in Fs. destruct (Fs d' Hd') as (M' & R' & P' & T').
  destruct (labels_shape d x M Hx P) as (l & Pl & ->). destruct (labels_shape d' _ M' Hx' P') as (l' & Pl' & E).
  unfold full_label in E.
  assert (E2 : (d_name d ++ underscore :: d_type d) ++ underscore :: l = (d_name d' ++ underscore :: d_type d') ++ underscore :: l').
  { rewrite <- !app_assoc. exact E. }
  apply split_last in E2 as (E2 & ->); [|exact Pl|exact Pl']. apply split_last in E2 as (E2 & _); [|exact T|exact T'].
  apply Nd. rewrite E2. now apply in_map.
Qed.
Print Assumptions C100_across.

Lemma nodup_str_spec l : nodup_str l = true <-> NoDup l.
Proof.
  induction l as [|x l IH]; [split; [constructor|reflexivity]|]. cbn. rewrite Bool.andb_true_iff, Bool.negb_true_iff, IH. split.
  - intros (H & N). constructor; [|exact N]. intros K. apply str_in_spec in K. congruence.
  - intros H. inversion H; subst. split; [|assumption]. destruct (str_in x l) eqn:E; [|reflexivity]. apply str_in_spec in E. contradiction.
Qed.
Lemma lookup_app_r {A} ls (vs : list A) ls' vs' x : List.length ls = List.length vs -> ~ In x ls -> lookup (ls ++ ls') (vs ++ vs') x = lookup ls' vs' x.
Proof.
  revert vs. induction ls as [|l ls IH]; intros [|v vs] H N; cbn in H; try discriminate; [reflexivity|]. cbn.
  destruct (str_eqb_spec x l) as [->|]; [exfalso; apply N; now left|]. apply IH; [now injection H|]. intros K. apply N. now right.
Qed.
Lemma select_self {A} ls (vs : list A) ls' vs' : List.length ls = List.length vs -> NoDup ls -> select (ls ++ ls') (vs ++ vs') ls = Ok vs.
Proof.
  intros H N.
  assert (G : forall pre prev ls vs, List.length ls = List.length vs -> List.length pre = List.length prev -> NoDup (pre ++ ls) ->
    select (pre ++ ls ++ ls') (prev ++ vs ++ vs') ls = Ok (vs : list A)).
  { clear. intros pre prev ls. revert pre prev. induction ls as [|l ls IH]; intros pre prev [|v vs] H Hp N; cbn in H; try discriminate; [reflexivity|].
    cbn [select]. rewrite lookup_app_r; [|exact Hp|].
    2:{ intros K. apply NoDup_remove_2 in N. apply N. apply in_or_app. now left. }
    cbn [app lookup]. destruct (str_eqb_spec l l); [|congruence]. cbn [bind].
    specialize (IH (pre ++ [l]) (prev ++ [v]) vs). rewrite <- !app_assoc in IH. cbn [app] in IH. rewrite IH; [reflexivity|now injection H|rewrite !app_length; cbn; lia|exact N]. }
  apply (G [] []); auto.
Qed.

(** values stored for all the channels of a fit: selecting by the labels of a data set
    gives the values of that data set, in order *)
Theorem C100_select : forall A (before after : list (list str)) labels (vb : list (list A)) vals (va : list (list A)),
  List.length (concat before) = List.length (concat vb) -> List.length labels = List.length vals ->
  NoDup (all_labels (before ++ labels :: after)) ->
  sel (all_labels (before ++ labels :: after)) (concat (vb ++ vals :: va)) labels = Ok vals.
Proof.
  intros A before after labels vb vals va H1 H2 N. unfold sel, all_labels in *. rewrite (proj2 (nodup_str_spec _) N).
  rewrite !concat_app in *. cbn [concat] in *.
  assert (Nl : NoDup (labels ++ concat after)) by (now apply nodup_tail in N).
  assert (D : forall x, In x labels -> ~ In x (concat before)).
  { intros x Hx K. clear -N Hx K. induction (concat before) as [|y l IH]; [easy|]. cbn in N. inversion N; subst. destruct K as [->|K]; [|auto].
    apply H1. apply in_or_app. right. apply in_or_app. now left. }
  assert (S : forall want, (forall x, In x want -> ~ In x (concat before)) ->
    select (concat before ++ labels ++ concat after) (concat vb ++ vals ++ concat va) want = select (labels ++ concat after) (vals ++ concat va) want).
  { intros want. induction want as [|x w IH]; intros Hw; [reflexivity|]. cbn [select]. rewrite lookup_app_r; [|exact H1|apply Hw; now left].
    rewrite IH by (intros; apply Hw; now right). reflexivity. }
  rewrite S by exact D. apply select_self; [exact H2|]. clear -Nl. induction labels as [|x l IH]; [constructor|]. cbn in Nl. inversion Nl; subst.
  constructor; [|auto]. intros K. apply H1. apply in_or_app. now left.
Qed.
Print Assumptions C100_select.

(** ** What does not hold *)
(** with labels that agree somewhere, nothing can be selected for any data set *)
Theorem C100_repeated : forall A labels (vals : list A) want, ~ NoDup labels -> sel labels vals want = Err ValueError.
Proof. intros A labels vals want N. unfold sel. destruct (nodup_str labels) eqn:E; [|reflexivity]. apply nodup_str_spec in E. contradiction. Qed.
Print Assumptions C100_repeated.
(** the labels of a response are not checked: a repeated one is repeated in the fit *)
Theorem C100_raw_refuted : forall name ctype l, exists ls,
  chan_labels name ctype [l; l] [1; 1]%Z [true; true] false [true; true] = Ok ls /\ ~ NoDup ls.
Proof.
  intros. exists [full_label name ctype l; full_label name ctype l]. split; [reflexivity|]. intros N. inversion N; subst. apply H1. now left.
Qed.
Print Assumptions C100_raw_refuted.
(** two data sets whose names differ can have the same labels when a channel type has an
    underscore in it *)
Theorem C100_type_refuted : forall a b c raw fl q keep mask, a ++ underscore :: b <> a /\
  chan_labels a (b ++ underscore :: c) raw fl q keep mask = chan_labels (a ++ underscore :: b) c raw fl q keep mask.
Proof.
  intros. split.
  - intros H. apply (f_equal (@List.length _)) in H. rewrite app_length in H. cbn in H. lia.
  - unfold chan_labels. destruct (group_labels raw fl (Some q) keep); [|reflexivity]. cbn [bind]. f_equal. f_equal. apply map_ext.
    intros lab. unfold full_label. now rewrite <- !app_assoc.
Qed.
Print Assumptions C100_type_refuted.
(** grouping a response without giving a quality array is refused as soon as channels are
    combined, although the argument is documented as optional *)
Theorem C100_default_quality_refuted : forall raw fl keep, List.length fl = List.length raw ->
  starts fl <> [] -> List.length (starts fl) <> List.length raw -> group_labels raw fl None keep = Err IndexError.
Proof.
  intros raw fl keep H N N2. unfold group_labels. rewrite H, Nat.eqb_refl. cbn [negb].
  destruct (Nat.eqb_spec (List.length (starts fl)) (List.length raw)); [contradiction|]. destruct (starts fl); [easy|reflexivity].
Qed.
Print Assumptions C100_default_quality_refuted.

(** ** The hypotheses are met *)
Definition ex_d (n : string) (keep : bool) (ls : list string) : dset :=
  {| d_name := s2l n; d_type := s2l "Ch"; d_raw := map s2l ["0"; "1"; "2"; "3"; "4"]%string; d_fl := [1; -1; 1; 1; -1]%Z;
     d_q := [true; true; false; true; false]; d_keep := keep; d_mask := [true; true; true]; d_labels := map s2l ls |}.
Example C100_ex : let ds := [ex_d "A" true ["A_Ch_0+1"; "A_Ch_3"]%string; ex_d "A_2" false ["A_2_Ch_0"; "A_2_Ch_2"]%string] in
  NoDup (map d_name ds) /\ Forall (fun d => made d /\ raw_ok (d_raw d) /\ Forall plain (d_raw d) /\ plain (d_type d)) ds.
Proof.
  cbv zeta. split; [repeat constructor; cbn; intuition discriminate|].
  assert (R : raw_ok (map s2l ["0"; "1"; "2"; "3"; "4"]%string)).
  { split; [repeat constructor; cbn; intuition discriminate|]. repeat constructor; cbn; unfold plus; intuition discriminate. }
  assert (P : Forall plain (map s2l ["0"; "1"; "2"; "3"; "4"]%string)) by (repeat constructor; unfold plain, underscore; cbn; intuition discriminate).
  assert (T : plain (s2l "Ch")) by (unfold plain, underscore; cbn; intuition discriminate).
  constructor; [split; [reflexivity|repeat split; assumption || apply R]|].
  constructor; [split; [reflexivity|repeat split; assumption || apply R]|]. constructor.
Qed.
