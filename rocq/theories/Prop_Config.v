(** C82: settings of the computation environment. *)
From Coq Require Import Ascii String.
From Verif Require Import Base Namespace NamespaceProofs Config Batch.
From Coq Require Import List Lia ZArith.
Open Scope list_scope.

(** ** specification: a list of flags separated by whitespace *)
Definition word (w : str) : Prop := w <> [] /\ Forall (fun c => is_space c = false) w.
(** the number of devices is set by the word w to the (non-empty) value v *)
Definition sets_count (w v : str) : Prop := v <> [] /\ w = count_flag ++ v.
(** the word mentions such a setting anywhere *)
Definition mentions_count (w : str) : Prop := exists a v, v <> [] /\ w = a ++ count_flag ++ v.

Lemma flag_word : Forall (fun c => is_space c = false) count_flag. Proof. cbn. repeat constructor. Qed.
Lemma first_words_spec s w l : first_words s = (w, l) -> Forall (fun c => is_space c = false) w /\ Forall word l.
Proof.
  revert w l. induction s as [|c r IH]; intros w l H; cbn in H; [injection H as <- <-; split; constructor|]. destruct (first_words r) as [w' l'] eqn:E. destruct (IH _ _ eq_refl) as (A & B).
  destruct (is_space c) eqn:Ec; injection H as <- <-.
  - split; [constructor|]. destruct w' as [|x w']; [exact B|]. constructor; [|exact B]. split; [discriminate|exact A].
  - split; [constructor; assumption|exact B].
Qed.
Lemma split_words s : Forall word (py_split s).
Proof. unfold py_split. destruct (first_words s) as [w l] eqn:E. destruct (first_words_spec _ _ _ E) as (A & B). destruct w as [|c w]; [exact B|]. constructor; [split; [discriminate|exact A]|exact B]. Qed.
Lemma first_words_app w s : Forall (fun c => is_space c = false) w -> first_words (w ++ s) = (w ++ fst (first_words s), snd (first_words s)).
Proof. induction 1 as [|c w Hc Hw IH]; cbn; [now destruct (first_words s)|]. rewrite IH, Hc. reflexivity. Qed.
Lemma split_join l : Forall word l -> py_split (join l) = l.
Proof.
  intros H. assert (G : forall w r, word w -> Forall word r -> py_split (join r) = r -> py_split (join (w :: r)) = w :: r).
  { intros w r (Wn & Ww) Hr E. destruct r as [|x r].
    - cbn [join]. unfold py_split. rewrite <- (app_nil_r w) at 1. rewrite first_words_app by exact Ww. cbn. rewrite app_nil_r. destruct w; [congruence|reflexivity].
    - change (join (w :: x :: r)) with (w ++ blank :: join (x :: r)). unfold py_split. rewrite first_words_app by exact Ww. cbn [first_words fst snd]. unfold py_split in E. destruct (first_words (join (x :: r))) as [w' l'].
      change (is_space blank) with true. cbv iota. cbn [fst snd]. rewrite app_nil_r. rewrite E. destruct w; [congruence|reflexivity]. }
  induction H as [|w r Hw Hr IH]; [reflexivity|]. now apply G.
Qed.
Lemma matches_words pat r w l : Forall (fun c => is_space c = false) pat -> first_words r = (w, l) -> matches pat r = matches pat w.
Proof.
  intros Hp. revert r w l. induction Hp as [|p pat Hp Hpat IH]; intros r w l E.
  - destruct r as [|c r]; cbn in E |- *; [injection E as <- <-; reflexivity|]. destruct (first_words r) as [w' l']. destruct (is_space c) eqn:Ec; injection E as <- <-; cbn; now rewrite ?Ec.
  - destruct r as [|c r]; cbn in E |- *; [injection E as <- <-; reflexivity|]. destruct (first_words r) as [w' l'] eqn:Er. destruct (is_space c) eqn:Ec; injection E as <- <-.
    + destruct (ascii_dec p c) as [->|]; [congruence|reflexivity].
    + destruct (ascii_dec p c); [|reflexivity]. eapply IH. exact Er.
Qed.
Definition nonempty (w : str) : bool := match w with [] => false | _ => true end.
Lemma strip_first s : forall b w l, first_words s = (w, l) -> first_words (strip b s) = (strip b w, filter nonempty (map (strip false) l)).
Proof.
  induction s as [|c r IH]; intros b w l E; [cbn in E; injection E as <- <-; reflexivity|]. pose proof E as E0. cbn [first_words] in E. destruct (first_words r) as [w' l'] eqn:Er. cbn [strip].
  rewrite (matches_words count_flag (c :: r) w l flag_word E0). destruct (is_space c) eqn:Ec; injection E as <- <-.
  - rewrite Bool.andb_false_r. change (matches count_flag []) with false. cbv iota. cbn [first_words]. rewrite (IH false _ _ eq_refl), Ec. cbn [strip]. f_equal.
    destruct w' as [|x w']; [reflexivity|]. cbn [cons_ne map filter]. destruct (strip false (x :: w')); reflexivity.
  - cbn [strip]. rewrite Ec. destruct b; cbn [andb negb]; [now apply IH|]. destruct (matches count_flag (c :: w')); [now apply IH|]. cbn [first_words]. now rewrite (IH false _ _ eq_refl), Ec.
Qed.
Lemma split_strip s : py_split (strip false s) = filter nonempty (map (strip false) (py_split s)).
Proof.
  unfold py_split. destruct (first_words s) as [w l] eqn:E. rewrite (strip_first _ false _ _ E). destruct w as [|c w]; [reflexivity|]. cbn [cons_ne map filter]. destruct (strip false (c :: w)); reflexivity.
Qed.
Lemma matches_spec pat w : Forall (fun c => is_space c = false) w -> (matches pat w = true <-> exists v, v <> [] /\ w = pat ++ v).
Proof.
  intros H. revert pat. induction H as [|c w Hc Hw IH]; intros pat.
  - destruct pat; cbn; split; try discriminate; intros (v & Hv & E); try congruence.
  - destruct pat as [|p pat]; cbn.
    + rewrite Hc. cbn. split; [|reflexivity]. intros _. exists (c :: w). split; [discriminate|reflexivity].
    + destruct (ascii_dec p c) as [->|N].
      * rewrite IH. split; intros (v & Hv & E); exists v; (split; [exact Hv|]); [now rewrite E|now injection E].
      * split; [discriminate|]. intros (v & _ & E). injection E as E1 E2. congruence.
Qed.
Lemma strip_all w : Forall (fun c => is_space c = false) w -> strip true w = [].
Proof. induction 1 as [|c w Hc Hw IH]; [reflexivity|]. cbn [strip]. now rewrite Hc. Qed.
(** in a word, everything from the first mention on goes *)
Lemma strip_word w : Forall (fun c => is_space c = false) w ->
  (~ mentions_count w /\ strip false w = w) \/ (exists a v, v <> [] /\ w = a ++ count_flag ++ v /\ strip false w = a /\ ~ mentions_count a).
Proof.
  induction 1 as [|c w Hc Hw IH].
  - left. split; [|reflexivity]. intros (a & v & Hv & E). symmetry in E. apply app_eq_nil in E as (_ & E). apply app_eq_nil in E as (_ & E). contradiction.
  - assert (Hcw : Forall (fun c => is_space c = false) (c :: w)) by (constructor; assumption). cbn [strip andb]. destruct (matches count_flag (c :: w)) eqn:M.
    + right. apply matches_spec in M as (v & Hv & E); [|exact Hcw]. exists [], v. split; [exact Hv|]. split; [exact E|]. split; [now apply strip_all|].
      intros (a & v' & Hv' & E'). symmetry in E'. apply app_eq_nil in E' as (_ & E'). apply app_eq_nil in E' as (_ & E'). contradiction.
    + assert (Nm : forall v, v <> [] -> c :: w <> count_flag ++ v). { intros v Hv E. assert (matches count_flag (c :: w) = true) by (apply matches_spec; [exact Hcw|eauto]). congruence. }
      destruct IH as [(A & B)|(a & v & Hv & E & B & A)].
      * left. split; [|now rewrite B]. intros (a & v & Hv & E). destruct a as [|x a]; [now apply (Nm v)|]. injection E as -> E. apply A. exists a, v. auto.
      * right. exists (c :: a), v. split; [exact Hv|]. split; [now rewrite E|]. split; [now rewrite B|]. intros (a' & v' & Hv' & E'). destruct a' as [|x a'].
        -- apply (Nm (v' ++ count_flag ++ v)); [destruct v'; [congruence|discriminate]|]. rewrite E. change (c :: a ++ count_flag ++ v) with ((c :: a) ++ count_flag ++ v). rewrite E'. cbn [app]. now rewrite <- app_assoc.
        -- injection E' as -> E'. apply A. exists a', v'. auto.
Qed.
Lemma int_str_word n : word (int_str n).
Proof.
  assert (D : forall c, is_digit c -> is_space c = false) by (intros c H; unfold is_digit in H; cbn in H; repeat (destruct H as [<-|H]; [reflexivity|]); destruct H).
  assert (G : forall k, word (nat_str k)).
  { intros k. split.
    - intros E. assert (nat_str k ++ [] = nat_str k) by apply app_nil_r. destruct k; [discriminate|]. assert (H2 : S k = 0%nat \/ True) by auto. unfold nat_str in E. destruct (Nat.to_uint (S k)) eqn:U; try discriminate.
      assert (X : Nat.of_uint (Nat.to_uint (S k)) = S k) by apply DecimalNat.Unsigned.of_to. rewrite U in X. discriminate.
    - apply (Forall_impl _ D). apply uint_digits. }
  unfold int_str. destruct (n <? 0)%Z; [|apply G]. split; [discriminate|]. constructor; [reflexivity|apply G].
Qed.
Lemma count_word n : word (count_flag ++ int_str n).
Proof. split; [discriminate|]. apply Forall_app. split; [apply flag_word|apply int_str_word]. Qed.

(** ** the number of devices *)
(** the number actually requested *)
Definition cores (total : nat) (n : Z) : Z := if (Z.of_nat total <? n)%Z then (Z.of_nat total - 1)%Z else n.
(** afterwards the first flag sets the number of devices, no other flag does, and of the other flags all are kept as they were that did
    not mention the number of devices *)
Theorem C82_flags : forall total xla_flags n,
  exists rest, py_split (fst (set_cpu_cores total xla_flags n)) = (count_flag ++ int_str (cores total n)) :: rest /\
  Forall (fun w => ~ mentions_count w) rest /\
  (forall kept : str -> bool, (forall w, In w (py_split xla_flags) -> (kept w = true -> ~ mentions_count w) /\ (kept w = false -> exists v, sets_count w v)) ->
     rest = filter kept (py_split xla_flags)).
Proof.
  intros total s n. unfold set_cpu_cores. cbn [fst]. fold (cores total n). exists (py_split (strip false s)).
  rewrite split_join by (constructor; [apply count_word|apply split_words]). split; [reflexivity|]. rewrite split_strip.
  pose proof (split_words s) as W. split.
  - apply Forall_forall. intros w Hw. apply filter_In in Hw as (Hw & _). apply in_map_iff in Hw as (x & <- & Hx). rewrite Forall_forall in W. destruct (W x Hx) as (_ & Wx).
    destruct (strip_word x Wx) as [(A & ->)|(a & v & _ & _ & -> & A)]; exact A.
  - intros kept K. induction W as [|w l (Wn & Ww) Wl IH]; [reflexivity|]. cbn [map filter]. rewrite IH by (intros x Hx; apply K; now right). destruct (K w (or_introl eq_refl)) as (K1 & K2).
    destruct (kept w).
    + destruct (strip_word w Ww) as [(_ & ->)|(a & v & Hv & E & _)]; [destruct w; [congruence|reflexivity]|]. exfalso. apply K1; [reflexivity|]. exists a, v. auto.
    + destruct (K2 eq_refl) as (v & Hv & E). assert (M : matches count_flag w = true) by (apply matches_spec; [exact Ww|exists v; auto]).
      destruct w as [|c w]; [congruence|]. cbn [strip andb]. rewrite M. inversion Ww; subst. now rewrite strip_all.
Qed.
Print Assumptions C82_flags.
(** calling it again replaces the number *)
Theorem C82_last_wins : forall total s n m, fst (set_cpu_cores total (fst (set_cpu_cores total s n)) m) = fst (set_cpu_cores total s m).
Proof.
  intros total s n m. destruct (C82_flags total s n) as (rest & E & F & _). destruct (C82_flags total s m) as (rest' & E' & F' & _).
  assert (R : rest = rest'). { unfold set_cpu_cores in E, E'. cbn [fst] in E, E'. rewrite split_join in E by (constructor; [apply count_word|apply split_words]). rewrite split_join in E' by (constructor; [apply count_word|apply split_words]). apply (f_equal (@tl _)) in E. apply (f_equal (@tl _)) in E'. cbn [tl] in E, E'. congruence. }
  destruct (C82_flags total (fst (set_cpu_cores total s n)) m) as (rest2 & E2 & F2 & K2).
  assert (R2 : rest2 = rest).
  { rewrite (K2 (fun w => negb (matches count_flag w))).
    - rewrite E. cbn [filter]. assert (M : matches count_flag (count_flag ++ int_str (cores total n)) = true) by (apply matches_spec; [apply count_word|]; exists (int_str (cores total n)); split; [apply int_str_word|reflexivity]).
      rewrite M. cbn [negb]. clear - F E. assert (W : Forall word rest) by (pose proof (split_words (fst (set_cpu_cores total s n))) as W; rewrite E in W; now inversion W). clear E.
      induction W as [|w l (Wn & Ww) Wl IH]; [reflexivity|]. inversion F; subst. cbn [filter]. destruct (matches count_flag w) eqn:M; [|cbn [negb]; now rewrite IH].
      exfalso. apply matches_spec in M as (v & Hv & Ew); [|exact Ww]. apply H1. exists [], v. auto.
    - intros w Hw. pose proof (split_words (fst (set_cpu_cores total s n))) as W. rewrite Forall_forall in W. destruct (W w Hw) as (_ & Ww). rewrite E in Hw. destruct (matches count_flag w) eqn:M; cbn [negb]; split; try discriminate; intros _.
      + apply matches_spec in M as (v & Hv & Ew); [|exact Ww]. exists v. split; assumption.
      + destruct Hw as [<-|Hw]; [|rewrite Forall_forall in F; now apply F]. exfalso. assert (M' : matches count_flag (count_flag ++ int_str (cores total n)) = true) by (apply matches_spec; [exact Ww|]; exists (int_str (cores total n)); split; [apply int_str_word|reflexivity]). congruence. }
  assert (J : forall t k, fst (set_cpu_cores total t k) = join (py_split (fst (set_cpu_cores total t k)))).
  { intros t k. unfold set_cpu_cores. cbn [fst]. rewrite split_join; [reflexivity|]. constructor; [apply count_word|apply split_words]. }
  rewrite (J (fst (set_cpu_cores total s n))), (J s m), E2, E', R2, R. reflexivity.
Qed.
Print Assumptions C82_last_wins.
(** refuted: the number of devices that is set need not be positive *)
Theorem C82_cores_refuted :
  (forall total s n, (1 <= n <= Z.of_nat total)%Z -> cores total n = n /\ snd (set_cpu_cores total s n) = false) /\
  (forall s n, (1 < n)%Z -> cores 1 n = 0%Z /\ snd (set_cpu_cores 1 s n) = true) /\
  (forall total s n, (n <= 0)%Z -> cores total n = n /\ snd (set_cpu_cores total s n) = false).
Proof.
  unfold cores, set_cpu_cores. cbn [snd]. repeat split; intros; try (destruct (Z.ltb_spec (Z.of_nat total) n)); try (destruct (Z.ltb_spec (Z.of_nat 1) n)); cbn; (reflexivity || lia).
Qed.
Print Assumptions C82_cores_refuted.
Example C82_ex : map string_of_list_ascii (py_split (fst (set_cpu_cores 8 (s2l "--a=1  --xla_force_host_platform_device_count=2 --b") 4))) = ["--xla_force_host_platform_device_count=4"; "--a=1"; "--b"]%string.
Proof. reflexivity. Qed.

(** ** how many processes run *)
Theorem C82_parallel : forall devices n, (0 < devices)%nat ->
  (forall k, get_parallel_number devices n = Ok k -> (1 <= k <= devices)%nat /\ match n with None => k = devices | Some m => Z.of_nat k = Z.min m (Z.of_nat devices) end) /\
  (forall e, get_parallel_number devices n = Err e <-> e = ValueError /\ exists m, n = Some m /\ (m <= 0)%Z).
Proof.
  intros devices n Hd. unfold get_parallel_number. destruct n as [m|]; [|split; [intros k H; injection H as <-; split; [lia|reflexivity]|intros e; split; [discriminate|intros (_ & m & [=] & _)]]].
  destruct (Z.leb_spec m 0) as [H|H].
  - split; [discriminate|]. intros e. split; [intros E; injection E as <-; split; [reflexivity|]; exists m; auto|]. now intros (-> & _).
  - split; [|intros e; split; [discriminate|]; intros (_ & m' & [= <-] & H'); lia]. intros k E. injection E as <-. destruct (Z.ltb_spec (Z.of_nat devices) m); split; lia.
Qed.
Print Assumptions C82_parallel.

(** ** precision and platform *)
Theorem C82_x64_refuted :
  (forall env, jax_enable_x64 env true = true) /\ jax_enable_x64 None false = false /\
  (forall v, jax_enable_x64 (Some v) false = true <-> v <> []) (* also for "0" and "False" *).
Proof. split; [reflexivity|]. split; [reflexivity|]. intros [|c v]; split; (reflexivity || easy). Qed.
Print Assumptions C82_x64_refuted.
Theorem C82_platform : forall env platform p, set_jax_platform env platform = Ok p <->
  In p [s2l "cpu"; s2l "gpu"; s2l "tpu"] /\ (platform = Some p \/ (platform = None /\ (env = Some p \/ (env = None /\ p = s2l "cpu")))).
Proof.
  intros env platform p. unfold set_jax_platform. set (x := match platform with Some p => p | None => _ end). destruct (str_in x platforms) eqn:E.
  - apply str_in_spec in E. split.
    + intros H. injection H as <-. split; [exact E|]. subst x. destruct platform; [left; reflexivity|]. right. split; [reflexivity|]. destruct env; [left; reflexivity|right; auto].
    + intros (_ & [->|(-> & [->|(-> & ->)])]); reflexivity.
  - split; [discriminate|]. intros (H & C). exfalso. assert (x = p) by (subst x; destruct C as [->|(-> & [->|(-> & ->)])]; reflexivity). subst p. apply (proj2 (str_in_spec _ _)) in H. unfold platforms in E. congruence.
Qed.
Print Assumptions C82_platform.
