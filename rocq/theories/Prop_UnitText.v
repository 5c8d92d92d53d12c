(** C120: LaTeX texts of units; C121: texts replaced in a structure. *)
From Coq Require Import Ascii String.
From Verif Require Import Base Namespace NamespaceProofs RBase Expr ModelAlg Labels Prop_Labels CompileProofs UnitText.
From Coq Require Import List Lia Permutation Sorted.
Import ListNotations.
Open Scope list_scope.
Open Scope nat_scope.

(** ** C120, specification *)
(** the letters are those of the English alphabet, and no other character is one *)
Theorem C120_letters : forall c, letter c = true <-> In c (s2l "abcdefghijklmnopqrstuvwxyzABCDEFGHIJKLMNOPQRSTUVWXYZ").
Proof.
  intros c. split; [|intros H; repeat (destruct H as [<-|H]; [reflexivity|]); destruct H].
  destruct c as [[] [] [] [] [] [] [] []]; vm_compute; intros H; try discriminate; repeat (try (left; reflexivity); right).
Qed.
Print Assumptions C120_letters.
(** from place [p] of the text a name of the base is reached over characters that are no letters *)
Definition reached (t : str) (b : ubase) (p : nat) : Prop :=
  exists name pre mid post, In name (b_name b :: b_aliases b) /\ t = pre ++ mid ++ name ++ post /\ length pre = p /\ Forall (fun c => letter c = false) mid.
(** the first such place, or the end *)
Definition first_place (t : str) (b : ubase) (p : nat) : Prop :=
  (reached t b p /\ forall q, reached t b q -> p <= q) \/ (p = length t /\ forall q, reached t b q -> p <= q).

Lemma match_here_spec name t : match_here name t = true <-> exists mid post, t = mid ++ name ++ post /\ Forall (fun c => letter c = false) mid.
Proof.
  induction t as [|c t IH]; cbn [match_here]; rewrite Bool.orb_true_iff, prefixb_spec.
  - split; [intros [(b & E)|H]; [exists [], b; split; [exact E|constructor]|discriminate]|].
    intros (mid & post & E & _). left. exists post. destruct mid; [exact E|discriminate].
  - rewrite Bool.andb_true_iff, IH, Bool.negb_true_iff. split.
    + intros [(b & E)|(L & mid & post & E & F)]; [exists [], b; split; [exact E|constructor]|]. exists (c :: mid), post. split; [cbn; now rewrite E|now constructor].
    + intros ([|d mid] & post & E & F); [left; now exists post|]. cbn [app] in E. injection E as -> E. inversion F; subst. right. split; [assumption|]. now exists mid, post.
Qed.
Definition at_place (name t : str) (p : nat) : Prop := exists pre mid post, t = pre ++ mid ++ name ++ post /\ length pre = p /\ Forall (fun c => letter c = false) mid.
Lemma search_spec name t : match search name t with
  | Some p => at_place name t p /\ (forall q, at_place name t q -> p <= q) | None => forall q, ~ at_place name t q end.
Proof.
  induction t as [|c t IH].
  - cbn [search]. destruct (match_here name []) eqn:M.
    + apply match_here_spec in M as (mid & post & E & F). split; [exists [], mid, post; auto|lia].
    + intros q (pre & mid & post & E & _ & F). assert (M' : match_here name [] = true); [|congruence]. apply match_here_spec. exists mid, post. split; [|exact F]. destruct pre; [exact E|discriminate].
  - cbn [search]. destruct (match_here name (c :: t)) eqn:M.
    + apply match_here_spec in M as (mid & post & E & F). split; [exists [], mid, post; auto|lia].
    + assert (Z : ~ at_place name (c :: t) 0).
      { intros (pre & mid & post & E & L & F). destruct pre; [|discriminate]. assert (M' : match_here name (c :: t) = true); [|congruence]. apply match_here_spec. now exists mid, post. }
      assert (Sh : forall q, at_place name (c :: t) (S q) <-> at_place name t q).
      { intros q. split; intros (pre & mid & post & E & L & F).
        - destruct pre as [|d pre]; [discriminate|]. cbn [app] in E. injection E as -> E. exists pre, mid, post. auto.
        - exists (c :: pre), mid, post. split; [cbn; now rewrite E|]. split; [cbn; now rewrite L|exact F]. }
      destruct (search name t) as [p|]; cbn [option_map].
      * destruct IH as (A & B). split; [now apply Sh|]. intros [|q] Q; [contradiction|]. apply Sh in Q. apply B in Q. lia.
      * intros [|q] Q; [contradiction|]. apply Sh in Q. exact (IH q Q).
Qed.
Lemma min_fold n l : fold_right Nat.min n l <= n /\ (forall x, In x l -> fold_right Nat.min n l <= x) /\ (fold_right Nat.min n l = n \/ In (fold_right Nat.min n l) l).
Proof.
  induction l as [|x l (A & B & C)]; [cbn; repeat split; auto; intros ? []|]. cbn [fold_right In]. split; [lia|]. split.
  - intros y [<-|I]; [lia|]. specialize (B y I). lia.
  - destruct (Nat.min_spec x (fold_right Nat.min n l)) as [(_ & ->)|(_ & E)]; [right; now left|]. rewrite E. destruct C as [C|C]; [left; exact C|right; now right].
Qed.
Theorem C120_place : forall t b, first_place t b (position t b).
Proof.
  intros t b. unfold position. set (l := map _ _). destruct (min_fold (length t) l) as (A & B & C).
  assert (R : forall q, reached t b q -> fold_right Nat.min (length t) l <= q).
  { intros q (name & pre & mid & post & I & E & L & F). pose proof (search_spec name t) as Sp. assert (Q : at_place name t q) by (exists pre, mid, post; auto).
    destruct (search name t) as [p|] eqn:Es; [|now elim (Sp q)]. destruct Sp as (_ & Sp). apply (Nat.le_trans _ p); [|now apply Sp]. apply B. unfold l. apply in_map_iff. exists name. rewrite Es. auto. }
  destruct C as [C|C]; [right; auto|]. apply in_map_iff in C as (name & E & I). pose proof (search_spec name t) as Sp. destruct (search name t) as [p|].
  - left. split; [|exact R]. destruct Sp as ((pre & mid & post & E1 & E2 & E3) & _). rewrite <- E. exists name, pre, mid, post. auto.
  - right. split; [now symmetry|exact R].
Qed.
Print Assumptions C120_place.

Lemma insert_perm key x l : Permutation (insert_by key x l) (x :: l).
Proof.
  induction l as [|y l IH]; cbn [insert_by]; [constructor; constructor|]. destruct (key x <=? key y); [apply Permutation_refl|].
  apply (Permutation_trans (l' := y :: x :: l)); [now constructor|apply perm_swap].
Qed.
Lemma sort_perm key l : Permutation (sort_by key l) l.
Proof. induction l as [|x l IH]; [constructor|]. cbn [sort_by fold_right]. eapply Permutation_trans; [apply insert_perm|now constructor]. Qed.
Lemma sort_sorted key l : StronglySorted (fun a b => key a <= key b) (sort_by key l).
Proof.
  assert (I : forall x s, StronglySorted (fun a b => key a <= key b) s -> StronglySorted (fun a b => key a <= key b) (insert_by key x s)).
  { intros x s H. induction H as [|y s H IH F]; cbn [insert_by]; [repeat constructor|]. destruct (Nat.leb_spec (key x) (key y)) as [L|L].
    - constructor; [now constructor|]. constructor; [exact L|]. rewrite Forall_forall in *. intros z Iz. specialize (F z Iz). lia.
    - constructor; [exact IH|]. rewrite Forall_forall in *. intros z Iz. apply (Permutation_in _ (insert_perm key x s)) in Iz as [<-|Iz]; [lia|now apply F]. }
  induction l as [|x l IH]; [constructor|]. cbn [sort_by fold_right]. now apply I.
Qed.
(** those of one place keep their order *)
Lemma sort_stable key l n : filter (fun b => key b =? n) (sort_by key l) = filter (fun b => key b =? n) l.
Proof.
  assert (I : forall x s, StronglySorted (fun a b => key a <= key b) s -> filter (fun b => key b =? n) (insert_by key x s) = filter (fun b => key b =? n) (x :: s)).
  { intros x s H. induction H as [|y s H IH F]; cbn [insert_by]; [reflexivity|]. destruct (Nat.leb_spec (key x) (key y)) as [L|L]; [reflexivity|].
    cbn [filter] in *. rewrite IH. destruct (Nat.eqb_spec (key x) n), (Nat.eqb_spec (key y) n); try reflexivity. lia. }
  induction l as [|x l IH]; [reflexivity|]. cbn [sort_by fold_right]. rewrite I by apply sort_sorted. cbn [filter]. unfold sort_by in IH. now rewrite IH.
Qed.
(** the text has every base of the unit with its own power, once, in the order of the first places *)
Theorem C120_unit : forall parse u throw bs scale, u <> [] -> parse u = Ok (bs, scale) -> exists shown,
  Permutation shown bs /\ StronglySorted (fun a b => forall p q, first_place u a p -> first_place u b q -> p <= q) shown /\
  (forall n, filter (fun b => position u b =? n) shown = filter (fun b => position u b =? n) bs) /\
  get_unit_latex parse u throw = Ok (s2l "$\mathrm{" ++ (match scale with [] => [] | _ => replace (s2l "1 \times ") [] scale ++ s2l "\ " end) ++
    join_with (s2l "\ ") (map (fun b => b_name b ++ match b_power b with Some p => s2l "^{" ++ p ++ s2l "}" | None => [] end) shown) ++ s2l "}$").
Proof.
  intros parse u throw bs scale Nu P. exists (sort_by (position u) bs). split; [apply sort_perm|]. split.
  - assert (U : forall b p, first_place u b p -> p = position u b).
    { intros b p H. pose proof (C120_place u b) as H'. assert (K : forall p q, first_place u b p -> first_place u b q -> p <= q).
      { intros p1 q1 [(A1 & A2)|(A1 & A2)] [(B1 & B2)|(B1 & B2)]; [now apply A2| |now apply A2|lia].
        destruct A1 as (name & pre & mid & post & _ & E & L & _). rewrite B1, E, app_length. lia. }
      apply Nat.le_antisymm; apply K; assumption. }
    pose proof (sort_sorted (position u) bs) as H. induction H as [|x s H IH F]; constructor; [exact IH|]. rewrite Forall_forall in *. intros y Iy p q Hp Hq.
    rewrite (U _ _ Hp), (U _ _ Hq). now apply F.
  - split; [intros n; apply sort_stable|]. unfold get_unit_latex. destruct u as [|c u]; [easy|]. rewrite P. reflexivity.
Qed.
Print Assumptions C120_unit.
(** no unit, no text; a text that is no unit raises only if asked to *)
Theorem C120_invalid : forall parse u throw, (u = [] -> get_unit_latex parse u throw = Ok []) /\
  (u <> [] -> parse u = Err ValueError -> get_unit_latex parse u throw = if throw then Err ValueError else Ok []) /\
  (u <> [] -> (forall v, v <> [] -> parse v <> Err ValueError -> exists r, parse v = Ok r) -> exists t, get_unit_latex parse u false = Ok t).
Proof.
  intros parse u throw. split; [intros ->; reflexivity|]. destruct u as [|c u]; [split; [easy|intros N; now elim N]|]. unfold get_unit_latex. split.
  - intros _ ->. reflexivity.
  - intros _ H. destruct (parse (c :: u)) as [(bs, sc)|e] eqn:E; [eexists; reflexivity|]. destruct e; try (destruct (H (c :: u)) as (r & Er); [discriminate|rewrite E; discriminate|congruence]). eexists; reflexivity.
Qed.
Print Assumptions C120_invalid.
(** the order is not that of the text: V is found in keV *)
Theorem C120_order_refuted : exists parse, parse (s2l "keV s V") =
    Ok ([{| b_name := s2l "V"; b_aliases := [s2l "Volt"; s2l "volt"]; b_power := None |}; {| b_name := s2l "keV"; b_aliases := []; b_power := None |};
         {| b_name := s2l "s"; b_aliases := [s2l "second"]; b_power := None |}], []) /\
  get_unit_latex parse (s2l "keV s V") false = Ok (s2l "$\mathrm{keV\ V\ s}$").
Proof. eexists (fun _ => _). split; [reflexivity|]. vm_compute. reflexivity. Qed.
Print Assumptions C120_order_refuted.
Example ex_unit : get_unit_latex (fun _ => Ok ([{| b_name := s2l "erg"; b_aliases := []; b_power := None |}; {| b_name := s2l "cm"; b_aliases := [s2l "centimeter"]; b_power := Some (s2l "-2") |};
    {| b_name := s2l "s"; b_aliases := [s2l "second"]; b_power := Some (s2l "-1") |}], s2l "1 \times 10^{-12}")) (s2l "1e-12 s^-1 erg cm^-2") false =
  Ok (s2l "$\mathrm{10^{-12}\ s^{-1}\ erg\ cm^{-2}}$").
Proof. vm_compute. reflexivity. Qed.

(** ** C121 *)
(** a text that occurs in the structure *)
Inductive text_of (s : str) : pyval -> Prop :=
| to_str : text_of s (PStr s)
| to_seq t l v : In v l -> text_of s v -> text_of s (PSeq t l)
| to_key d w : In (s, w) d -> text_of s (PDict d)
| to_val d k w : In (k, w) d -> text_of s w -> text_of s (PDict d).
(** a dictionary has every key once *)
Inductive sound : pyval -> Prop :=
| so_str s : sound (PStr s)
| so_seq t l : (forall v, In v l -> sound v) -> sound (PSeq t l)
| so_dict d : NoDup (map fst d) -> (forall k w, In (k, w) d -> sound w) -> sound (PDict d)
| so_other n : sound (POther n).
Fixpoint pyval_rec' (P : pyval -> Prop) (Hs : forall s, P (PStr s)) (Hl : forall t l, Forall P l -> P (PSeq t l))
  (Hd : forall d, Forall (fun kv => P (snd kv)) d -> P (PDict d)) (Ho : forall n, P (POther n)) (v : pyval) {struct v} : P v :=
  match v with
  | PStr s => Hs s
  | PSeq t l => Hl t l ((fix go l : Forall P l := match l with [] => Forall_nil _ | x :: r => Forall_cons _ (pyval_rec' P Hs Hl Hd Ho x) (go r) end) l)
  | PDict d => Hd d ((fix go d : Forall (fun kv => P (snd kv)) d := match d with [] => Forall_nil _ | kv :: r => Forall_cons _ (pyval_rec' P Hs Hl Hd Ho (snd kv)) (go r) end) d)
  | POther n => Ho n
  end.
Lemma text_unchanged mp s : (forall k v, In (k, v) mp -> ~ contains s k) -> replace_text mp s = s.
Proof.
  unfold replace_text. induction mp as [|[k v] mp IH]; intros H; [reflexivity|]. cbn [fold_left fst snd]. unfold replace. rewrite repl_none by (apply (H k v); now left). apply IH. intros k' v' I. apply (H k' v'). now right.
Qed.
(** nothing changes if no key of the mapping occurs in a text *)
Theorem C121_untouched : forall mp v, sound v -> (forall s, text_of s v -> forall k w, In (k, w) mp -> ~ contains s k) -> replace_string mp v = v.
Proof.
  intros mp v. induction v as [s|t l IH|d IH|n] using pyval_rec'; intros So H; cbn [replace_string].
  - f_equal. apply text_unchanged. apply H. constructor.
  - f_equal. inversion So as [|? ? Sl| |]; subst. rewrite <- (map_id l) at 2. apply map_ext_in. intros x Ix. rewrite Forall_forall in IH. apply IH; [exact Ix|now apply Sl|]. intros s Ts. apply H. now apply (to_seq s t l x).
  - f_equal. inversion So as [| |? N Sd|]; subst.
    assert (G : forall done rest, d = done ++ rest -> fold_left (fun acc kv => match kv with (k, w) => put acc (replace_text mp k) (replace_string mp w) end) rest done = d).
    { intros done rest. revert done. induction rest as [|[k w] rest IHr]; intros done E; [cbn [fold_left]; rewrite E; now rewrite app_nil_r|]. cbn [fold_left].
      assert (I : In (k, w) d) by (rewrite E; apply in_or_app; right; now left). rewrite (text_unchanged mp k) by (apply H; now apply (to_key k d w)).
      rewrite Forall_forall in IH. pose proof (IH (k, w) I) as Hw. cbn [snd] in Hw. rewrite Hw; [|now apply (Sd k w)|intros s Ts; apply H; now apply (to_val s d k w)].
      rewrite put_fresh; [apply IHr; rewrite E, <- app_assoc; reflexivity|]. intros K. rewrite E, map_app in N. cbn [map fst] in N. apply NoDup_remove_2 in N. apply N, in_or_app. now left. }
    exact (G [] d eq_refl).
  - reflexivity.
Qed.
Print Assumptions C121_untouched.
(** lists and tuples keep their kind and their places *)
Theorem C121_places : forall mp t l, exists l', replace_string mp (PSeq t l) = PSeq t l' /\ length l' = length l /\
  forall i d, i < length l -> nth i l' d = replace_string mp (nth i l d).
Proof.
  intros mp t l. exists (map (replace_string mp) l). split; [reflexivity|]. split; [apply map_length|]. intros i d Hi. rewrite (nth_indep _ d (replace_string mp d)) by (now rewrite map_length). apply map_nth.
Qed.
Print Assumptions C121_places.
(** a text that is a key of the mapping becomes its value, if no key occurs in another key or in a value *)
Theorem C121_names_partial : forall mp k v, In (k, v) mp -> k <> [] -> NoDup (map fst mp) ->
  (forall k' v', In (k', v') mp -> k' <> k -> ~ contains k k') -> (forall k' v', In (k', v') mp -> ~ contains v k') -> replace_string mp (PStr k) = PStr v.
Proof.
  intros mp k v I Nk N Hk Hv. cbn [replace_string]. f_equal. apply in_split in I as (a & b & ->). unfold replace_text. rewrite fold_left_app. cbn [fold_left fst snd].
  rewrite map_app in N. cbn [map fst] in N. apply NoDup_remove_2 in N.
  assert (E1 : fold_left (fun x kv => replace (fst kv) (snd kv) x) a k = k).
  { apply (text_unchanged a k). intros k' v' I. apply (Hk k' v'); [apply in_or_app; now left|]. intros ->. apply N, in_or_app. left. apply in_map_iff. now exists (k, v'). }
  assert (E2 : fold_left (fun x kv => replace (fst kv) (snd kv) x) b v = v).
  { apply (text_unchanged b v). intros k' v' I. apply (Hv k' v'). apply in_or_app. right. now right. }
  etransitivity; [|exact E2]. f_equal. etransitivity; [exact (f_equal (replace k v) E1)|]. now apply repl_self.
Qed.
Print Assumptions C121_names_partial.
(** otherwise a text already replaced is replaced again: two names cannot be exchanged *)
Theorem C121_exchange_refuted : replace_string [(s2l "a", s2l "b"); (s2l "b", s2l "a")] (PSeq false [PStr (s2l "a"); PStr (s2l "b")]) = PSeq false [PStr (s2l "a"); PStr (s2l "a")].
Proof. reflexivity. Qed.
Print Assumptions C121_exchange_refuted.
(** and keys that become equal lose an entry *)
Theorem C121_entries_refuted : replace_string [(s2l "x", s2l "y")] (PDict [(s2l "x", POther 1); (s2l "y", POther 2)]) = PDict [(s2l "y", POther 2)].
Proof. reflexivity. Qed.
Print Assumptions C121_entries_refuted.
Example ex_replace : replace_string [(s2l "id1", s2l "PL"); (s2l "id2", s2l "BB")] (PDict [(s2l "id1", PSeq true [PStr (s2l "id2"); POther 3])]) = PDict [(s2l "PL", PSeq true [PStr (s2l "BB"); POther 3])].
Proof. reflexivity. Qed.
