(** C117: labels with sub- and superscripts. *)
From Coq Require Import Ascii String NArith Lia.
From Verif Require Import Base Namespace NamespaceProofs HelperData HelperDataProofs Suffix.
From Coq Require Import List.
Import ListNotations.
Open Scope list_scope.
Open Scope nat_scope.

Section C117.
Variables (repr ascii_ : text -> text).
Notation percent := (percent repr ascii_).
Notation set_suffix_config := (set_suffix_config repr ascii_).
Notation add_suffix := (Suffix.add_suffix repr ascii_).
Notation labels := (labels repr ascii_).

(** ** specification *)
(** a template the settings accept: one that formats the word of the test *)
Definition accepted (t : text) : Prop := exists x, percent t (t_ "test") = Ok x.
(** what a template does to its argument: shown as it is (or as its representation), cut to a number of characters, padded with blanks *)
Definition shows (f : text -> text) : Prop :=
  exists left w p g, (g = (fun a => a) \/ g = repr \/ g = ascii_) /\ forall a, f a = pad left w (cut p (g a)).
Definition good (c : config) : Prop := accepted (c_sub c) /\ accepted (c_sup c) /\ accepted (c_lsub c) /\ accepted (c_lsup c).
(** [out] is [i] with the suffix [j] written as asked *)
Definition written (c : config) (sub u latex mathrm : bool) (i j out : text) : Prop :=
  let base := if latex then t_ "{" ++ i ++ t_ "}" else i in
  (j = [] -> out = base) /\
  (j <> [] -> latex = false -> u = false -> exists x, percent (if sub then c_sub c else c_sup c) j = Ok x /\ out = base ++ x) /\
  (j <> [] -> latex = false -> u = true -> out = base ++ to_unicode sub j) /\
  (j <> [] -> latex = true -> exists x, percent (if sub then c_lsub c else c_lsup c) (t_ (if mathrm then "\mathrm{" else "{") ++ j ++ t_ "}") = Ok x /\ out = base ++ x).

(** ** templates *)
Lemma convert_test sp c x : convert repr ascii_ sp c (t_ "test") = Ok x -> exists f, shows f /\ forall a, convert repr ascii_ sp c a = Ok (f a).
Proof.
  unfold convert. cbv zeta. intros H. assert (W : forall g, g = (fun a => a) \/ g = repr \/ g = ascii_ -> shows (fun a => pad (sp_left sp) (sp_width sp) (cut (sp_prec sp) (g a)))).
  { intros g G. exists (sp_left sp), (sp_width sp), (sp_prec sp), g. split; [exact G|reflexivity]. }
  destruct (one_of "s" c); [eexists; split; [apply (W (fun a => a)); auto|reflexivity]|].
  destruct (one_of "r" c); [eexists; split; [apply (W repr); auto|reflexivity]|].
  destruct (one_of "a" c); [eexists; split; [apply (W ascii_); auto|reflexivity]|].
  destruct (one_of "c" c); [discriminate|]. destruct (one_of _ c); discriminate.
Qed.
Lemma format_test t : forall m x, format_ repr ascii_ t m (Some (t_ "test")) = Ok x ->
  exists pre f post, shows f /\ forall a, format_ repr ascii_ t m (Some a) = Ok (pre ++ f a ++ post).
Proof.
  induction t as [|c t IH]; intros m x H; [destruct m; discriminate|]. cbn [format_] in H |- *. destruct m as [|sp].
  - destruct (one_of "%" c); [exact (IH _ _ H)|]. destruct (format_ _ _ t Plain _) as [y|] eqn:E; [|discriminate]. destruct (IH _ _ E) as (pre & f & post & S & F). exists (c :: pre), f, post. split; [exact S|]. intros a. rewrite F. reflexivity.
  - destruct (step sp c) as [sp'|e|]; [exact (IH _ _ H)|discriminate|]. destruct (one_of "%" c).
    + destruct (format_ _ _ t Plain _) as [y|] eqn:E; [|discriminate]. destruct (IH _ _ E) as (pre & f & post & S & F). exists (c :: pre), f, post. split; [exact S|]. intros a. rewrite F. reflexivity.
    + destruct (convert repr ascii_ sp c (t_ "test")) as [y|] eqn:E; [|discriminate]. cbn [bind] in H. destruct (format_ _ _ t Plain None) as [z|]; [|discriminate]. destruct (convert_test _ _ _ E) as (f & S & F).
      exists [], f, z. split; [exact S|]. intros a. rewrite F. reflexivity.
Qed.
Lemma format_err t : forall m arg e, format_ repr ascii_ t m arg = Err e -> e = TypeError \/ e = ValueError.
Proof.
  assert (SB : forall sp c e, step sp c = Bad e -> e = TypeError).
  { intros sp c e. unfold step, step_dot, step_mod. cbv zeta. repeat match goal with |- context[one_of ?s c] => destruct (one_of s c) end; destruct (digit_of c); destruct (sp_stage sp); now intros [= <-]. }
  induction t as [|c t IH]; intros m arg e H; cbn [format_] in H.
  - destruct m, arg; try discriminate; injection H as <-; auto.
  - destruct m as [|sp].
    + destruct (one_of "%" c); [exact (IH _ _ _ H)|]. destruct (format_ _ _ t Plain arg) eqn:E; [discriminate|]. injection H as <-. exact (IH _ _ _ E).
    + destruct (step sp c) as [sp'|e'|] eqn:E; [exact (IH _ _ _ H)|injection H as <-; left; exact (SB _ _ _ E)|]. destruct (one_of "%" c).
      * destruct (format_ _ _ t Plain arg) eqn:E2; [discriminate|]. injection H as <-. exact (IH _ _ _ E2).
      * destruct arg as [a|]; [|injection H as <-; auto]. destruct (convert repr ascii_ sp c a) eqn:E2; cbn [bind] in H.
        -- destruct (format_ _ _ t Plain None) eqn:E3; [discriminate|]. injection H as <-. exact (IH _ _ _ E3).
        -- injection H as <-. revert E2. unfold convert. cbv zeta. repeat match goal with |- context[one_of ?s c] => destruct (one_of s c) end; try discriminate; try (destruct (length a =? 1)); try discriminate; intros [= <-]; auto.
Qed.
(** a template that passes the test never fails later, and writes every suffix in the same manner between two fixed texts *)
Theorem C117_accepted : forall t, accepted t <-> exists pre f post, shows f /\ forall a, percent t a = Ok (pre ++ f a ++ post).
Proof.
  intros t. split; [intros (x & H); exact (format_test t Plain x H)|]. intros (pre & f & post & _ & F). eexists. apply F.
Qed.
Definition verbatim (t : text) : Prop := ~ List.In (ch "%"%char) t.
Lemma one_of_percent c : one_of "%" c = true <-> c = ch "%"%char.
Proof. unfold one_of. cbn [existsb t_ s2l list_ascii_of_string emb map]. rewrite Bool.orb_false_r. apply N.eqb_eq. Qed.
Lemma format_verbatim t : verbatim t -> forall r arg, format_ repr ascii_ (t ++ r) Plain arg = bind (format_ repr ascii_ r Plain arg) (fun x => Ok (t ++ x)).
Proof.
  unfold verbatim. induction t as [|c t IH]; intros V r arg; cbn [app format_]; [destruct (format_ _ _ r Plain arg); reflexivity|].
  destruct (one_of "%" c) eqn:P; [apply one_of_percent in P; exfalso; apply V; now left|]. rewrite IH by (intros J; apply V; now right). destruct (format_ _ _ r Plain arg); reflexivity.
Qed.
Theorem C117_plain : forall pre post a, verbatim pre -> verbatim post -> percent (pre ++ t_ "%s" ++ post) a = Ok (pre ++ a ++ post).
Proof.
  intros pre post a V1 V2. unfold Suffix.percent. rewrite format_verbatim by exact V1.
  change (format_ repr ascii_ (t_ "%s" ++ post) Plain (Some a)) with (bind (Ok ([] ++ a)) (fun x => bind (format_ repr ascii_ post Plain None) (fun y => Ok (x ++ y)))). cbn [bind app].
  rewrite <- (app_nil_r post) at 1. rewrite format_verbatim by exact V2. cbn [format_ bind]. now rewrite app_nil_r.
Qed.
Theorem C117_no_place : forall t, verbatim t -> ~ accepted t.
Proof.
  intros t V (x & H). unfold Suffix.percent in H. rewrite <- (app_nil_r t), format_verbatim in H by exact V. discriminate.
Qed.

(** a template [%-8.3s]: the first characters of the suffix, padded with blanks behind it ([-]) or before it *)
Definition digits (ds : list nat) : text := map (fun d => (48 + N.of_nat d)%N) ds.
Definition number_of (ds : list nat) : nat := fold_left (fun w d => 10 * w + d) ds 0.
Lemma ten (P : nat -> Prop) : P 0 -> P 1 -> P 2 -> P 3 -> P 4 -> P 5 -> P 6 -> P 7 -> P 8 -> P 9 -> forall d, d < 10 -> P d.
Proof. intros. do 10 (destruct d as [|d]; [assumption|]). lia. Qed.
Lemma step_width l w p d : d < 10 -> step {| sp_left := l; sp_width := w; sp_prec := p; sp_stage := Width |} (48 + N.of_nat d) =
  More {| sp_left := l; sp_width := 10 * w + d; sp_prec := p; sp_stage := Width |}.
Proof. revert d. apply ten; reflexivity. Qed.
Lemma step_prec l w p d : d < 10 -> step {| sp_left := l; sp_width := w; sp_prec := Some p; sp_stage := Prec |} (48 + N.of_nat d) =
  More {| sp_left := l; sp_width := w; sp_prec := Some (10 * p + d); sp_stage := Prec |}.
Proof. revert d. apply ten; reflexivity. Qed.
Lemma read_width ds : Forall (fun d => d < 10) ds -> forall l w p r arg, format_ repr ascii_ (digits ds ++ r) (InSpec {| sp_left := l; sp_width := w; sp_prec := p; sp_stage := Width |}) arg =
  format_ repr ascii_ r (InSpec {| sp_left := l; sp_width := fold_left (fun w d => 10 * w + d) ds w; sp_prec := p; sp_stage := Width |}) arg.
Proof.
  induction 1 as [|d ds Hd _ IH]; intros l w p r arg; [reflexivity|]. cbn [digits map List.app format_ fold_left]. rewrite step_width by exact Hd. apply IH.
Qed.
Lemma read_prec ds : Forall (fun d => d < 10) ds -> forall l w p r arg, format_ repr ascii_ (digits ds ++ r) (InSpec {| sp_left := l; sp_width := w; sp_prec := Some p; sp_stage := Prec |}) arg =
  format_ repr ascii_ r (InSpec {| sp_left := l; sp_width := w; sp_prec := Some (fold_left (fun w d => 10 * w + d) ds p); sp_stage := Prec |}) arg.
Proof.
  induction 1 as [|d ds Hd _ IH]; intros l w p r arg; [reflexivity|]. cbn [digits map List.app format_ fold_left]. rewrite step_prec by exact Hd. apply IH.
Qed.
Lemma start_width (l : bool) d : 0 < d -> d < 10 -> step {| sp_left := l; sp_width := 0; sp_prec := None; sp_stage := if l then Flags else Start |} (48 + N.of_nat d) =
  More {| sp_left := l; sp_width := d; sp_prec := None; sp_stage := Width |}.
Proof. intros P H. revert P. revert d H.
  refine (ten (fun d => 0 < d -> step {| sp_left := l; sp_width := 0; sp_prec := None; sp_stage := if l then Flags else Start |} (48 + N.of_nat d) = More {| sp_left := l; sp_width := d; sp_prec := None; sp_stage := Width |}) _ _ _ _ _ _ _ _ _ _);
    try (intros _; destruct l; reflexivity). intros K; lia.
Qed.
Lemma start_prec l w d : d < 10 -> step {| sp_left := l; sp_width := w; sp_prec := Some 0; sp_stage := Prec0 |} (48 + N.of_nat d) =
  More {| sp_left := l; sp_width := w; sp_prec := Some d; sp_stage := Prec |}.
Proof. revert d. apply ten; reflexivity. Qed.
Theorem C117_width : forall (left : bool) d ds (prec : option (list nat)) a, 0 < d < 10 -> Forall (fun d => d < 10) ds -> (forall ps, prec = Some ps -> Forall (fun d => d < 10) ps) ->
  let shown := match prec with Some ps => firstn (number_of ps) a | None => a end in
  let blanks := repeat 32%N (number_of (d :: ds) - length shown) in
  percent (t_ "%" ++ (if left then t_ "-" else []) ++ digits (d :: ds) ++ (match prec with Some ps => t_ "." ++ digits ps | None => [] end) ++ t_ "s") a =
  Ok (if left then shown ++ blanks else blanks ++ shown).
Proof.
  intros left d ds prec a (P & H) F FP shown blanks. unfold Suffix.percent.
  assert (E1 : format_ repr ascii_ (t_ "%" ++ (if left then t_ "-" else []) ++ digits (d :: ds) ++ (match prec with Some ps => t_ "." ++ digits ps | None => [] end) ++ t_ "s") Plain (Some a) =
    format_ repr ascii_ (digits (d :: ds) ++ (match prec with Some ps => t_ "." ++ digits ps | None => [] end) ++ t_ "s")
      (InSpec {| sp_left := left; sp_width := 0; sp_prec := None; sp_stage := if left then Flags else Start |}) (Some a)) by (destruct left; reflexivity).
  etransitivity; [exact E1|]. clear E1. change (digits (d :: ds)) with ((48 + N.of_nat d)%N :: digits ds). cbn [List.app format_]. rewrite start_width by assumption. rewrite read_width by exact F.
  assert (W : fold_left (fun w d => 10 * w + d) ds d = number_of (d :: ds)) by reflexivity. rewrite W.
  set (w := number_of (d :: ds)) in *. clearbody w.
  assert (Done : forall stage p, step {| sp_left := left; sp_width := w; sp_prec := p; sp_stage := stage |} (ch "s") = Type_ ->
    format_ repr ascii_ (t_ "s") (InSpec {| sp_left := left; sp_width := w; sp_prec := p; sp_stage := stage |}) (Some a) = Ok (pad left w (cut p a))).
  { intros stage p E. change (t_ "s") with [ch "s"%char]. cbn [format_]. rewrite E. cbn. now rewrite app_nil_r. }
  assert (Pd : forall x, pad left w x = if left then x ++ repeat 32%N (w - length x) else repeat 32%N (w - length x) ++ x) by reflexivity.
  destruct prec as [ps|].
  - specialize (FP ps eq_refl). unfold blanks, shown. rewrite <- Pd. change (t_ ".") with [ch "."%char]. cbn [List.app format_].
    change (step {| sp_left := left; sp_width := w; sp_prec := None; sp_stage := Width |} (ch ".")) with (More {| sp_left := left; sp_width := w; sp_prec := Some 0; sp_stage := Prec0 |}). cbn iota.
    destruct ps as [|e ps].
    + change (digits [] ++ t_ "s") with (t_ "s"). rewrite Done by reflexivity. reflexivity.
    + inversion FP as [|? ? He Fp]; subst. change (digits (e :: ps)) with ((48 + N.of_nat e)%N :: digits ps). cbn [List.app format_]. rewrite start_prec by exact He. rewrite read_prec by exact Fp.
      rewrite Done by reflexivity. reflexivity.
  - cbn [List.app]. rewrite Done by reflexivity. unfold blanks, shown. now rewrite <- Pd.
Qed.

(** ** the settings change together or not at all *)
Theorem C117_set : forall c new,
  (good new -> set_suffix_config c new = (new, None)) /\ (~ good new -> set_suffix_config c new = (c, Some ValueError)).
Proof.
  intros c new. unfold Suffix.set_suffix_config, good, accepted. cbn [mapE].
  assert (E : forall t, (exists x, percent t (t_ "test") = Ok x) \/ (exists e, percent t (t_ "test") = Err e /\ (e = TypeError \/ e = ValueError))).
  { intros t. destruct (percent t (t_ "test")) as [x|e] eqn:E; [left; now exists x|right; exists e; split; [reflexivity|exact (format_err _ _ _ _ E)]]. }
  destruct (E (c_sub new)) as [(x1 & E1)|(e1 & E1 & D1)]; rewrite E1; cbn [bind].
  2: { split; [intros ((x & H) & _); congruence|intros _; destruct D1 as [-> | ->]; reflexivity]. }
  destruct (E (c_sup new)) as [(x2 & E2)|(e2 & E2 & D2)]; rewrite E2; cbn [bind].
  2: { split; [intros (_ & (x & H) & _); congruence|intros _; destruct D2 as [-> | ->]; reflexivity]. }
  destruct (E (c_lsub new)) as [(x3 & E3)|(e3 & E3 & D3)]; rewrite E3; cbn [bind].
  2: { split; [intros (_ & _ & (x & H) & _); congruence|intros _; destruct D3 as [-> | ->]; reflexivity]. }
  destruct (E (c_lsup new)) as [(x4 & E4)|(e4 & E4 & D4)]; rewrite E4; cbn [bind].
  2: { split; [intros (_ & _ & _ & (x & H)); congruence|intros _; destruct D4 as [-> | ->]; reflexivity]. }
  split; [reflexivity|]. intros N. exfalso. apply N. eauto 10.
Qed.
Lemma good_defaults : good defaults.
Proof. unfold good, accepted. repeat split; eexists; reflexivity. Qed.
(** after any calls the settings are usable *)
Theorem C117_session : forall calls, good (fold_left (fun c new => fst (set_suffix_config c new)) calls defaults).
Proof.
  intros calls. assert (G : forall calls c, good c -> good (fold_left (fun c new => fst (set_suffix_config c new)) calls c)); [|apply G, good_defaults].
  clear calls. induction calls as [|new calls IH]; intros c G; [exact G|]. cbn [fold_left]. apply IH. destruct (C117_set c new) as (H1 & H2).
  destruct (set_suffix_config c new) as (c', e) eqn:E. cbn [fst]. unfold Suffix.set_suffix_config in E. destruct (mapE _ _) as [l|e'] eqn:M.
  - injection E as <- _. assert (Q : good new); [|exact Q]. apply mapE_inv in M. inversion M as [|? x1 ? ? A1 M1]; subst. inversion M1 as [|? x2 ? ? A2 M2]; subst. inversion M2 as [|? x3 ? ? A3 M3]; subst. inversion M3 as [|? x4 ? ? A4 M4]; subst.
    unfold good, accepted. eauto 10.
  - destruct e'; injection E as <- _; exact G.
Qed.

(** ** every string gets its own suffix *)
Lemma mapE_total {A B} (f : A -> res B) l : (forall x, List.In x l -> exists y, f x = Ok y) -> exists ys, mapE f l = Ok ys.
Proof.
  induction l as [|x l IH]; intros H; [now eexists|]. destruct (H x (or_introl eq_refl)) as (y & E). destruct IH as (ys & E'); [intros; apply H; now right|]. exists (y :: ys). cbn [mapE]. now rewrite E, E'.
Qed.
Lemma lt_one : accepted (t_ "%s").
Proof. eexists. reflexivity. Qed.
Lemma percent_s a : percent (t_ "%s") a = Ok a.
Proof. assert (V : verbatim []) by (intros []). pose proof (C117_plain [] [] a V V) as P. cbn [app] in P. now rewrite !app_nil_r in P. Qed.
Lemma mapE_nth2 {A B} (f : A -> res B) l ys d d' i : mapE f l = Ok ys -> i < length l -> f (nth i l d) = Ok (nth i ys d').
Proof.
  intros M. apply mapE_inv in M. revert i. induction M as [|x y l ys E _ IH]; intros i L; [cbn in L; lia|]. destruct i as [|i]; [exact E|]. cbn [nth]. apply IH. cbn in L. lia.
Qed.
Lemma mapE_length {A B} (f : A -> res B) l ys : mapE f l = Ok ys -> length ys = length l.
Proof. intros M. apply mapE_inv in M. induction M; cbn; congruence. Qed.
Theorem C117_add : forall c strings suffix sub uni latex mathrm, good c ->
  (length (items strings) <> length (items suffix) -> add_suffix c strings suffix sub uni latex mathrm = Err ValueError) /\
  (length (items strings) = length (items suffix) -> exists r, add_suffix c strings suffix sub uni latex mathrm = Ok r /\
     (is_one r = true <-> is_one strings = true /\ is_one suffix = true) /\ length (items r) = length (items strings) /\
     forall i, i < length (items strings) ->
       written c sub (match uni with Some b => b | None => c_unicode c end) latex mathrm (nth i (items strings) []) (nth i (items suffix) []) (nth i (items r) [])).
Proof.
  intros c strings suffix sub uni latex mathrm (G1 & G2 & G3 & G4). unfold Suffix.add_suffix. cbv zeta. set (u := match uni with Some b => b | None => c_unicode c end). clearbody u.
  set (S := items strings). set (F := items suffix). split; [intros H; apply Nat.eqb_neq in H; now rewrite H|]. intros H. pose proof H as H'. apply Nat.eqb_eq in H'. rewrite H'. cbn [negb].
  set (tm := if latex then (if sub then c_lsub c else c_lsup c) else if u then t_ "%s" else if sub then c_sub c else c_sup c).
  set (F' := map (prepared latex mathrm u sub) F). set (S' := map (fun i => if latex then braced i else i) S).
  assert (LS : length S' = length S) by apply map_length. assert (LF : length F' = length F) by apply map_length.
  assert (A : accepted tm) by (unfold tm; destruct latex; [destruct sub; assumption|]; destruct u; [exact lt_one|destruct sub; assumption]).
  apply C117_accepted in A as (pre & f & post & _ & A).
  destruct (mapE_total (fun '(i, j) => match j with [] => Ok i | _ => bind (percent tm j) (fun x => Ok (i ++ x)) end) (combine S' F')) as (ys & M).
  { intros (i, j) _. destruct j; [now eexists|]. rewrite A. now eexists. }
  rewrite M. cbn [bind]. eexists. split; [reflexivity|].
  assert (LY : length ys = length S) by (rewrite (mapE_length _ _ _ M), combine_length; lia).
  set (r := match ys with [x] => _ | _ => _ end). assert (IR : items r = ys) by (unfold r; destruct ys as [|x [|y ys]]; [reflexivity| |reflexivity]; destruct (is_one strings && is_one suffix)%bool; reflexivity).
  split.
  { rewrite <- Bool.andb_true_iff. unfold r. destruct (is_one strings && is_one suffix)%bool eqn:B.
    - apply Bool.andb_true_iff in B as (B1 & _). destruct strings as [x|l]; [|discriminate]. destruct ys as [|y [|z ys]]; try discriminate LY. split; reflexivity.
    - destruct ys as [|y [|z ys]]; cbn; split; discriminate. }
  rewrite IR. split; [exact LY|]. intros i Li. assert (LC : i < length (combine S' F')) by (rewrite combine_length, LS, LF, <- H, Nat.min_id; exact Li). pose proof (mapE_nth2 _ _ _ ([], []) [] i M LC) as N. rewrite (combine_nth S' F') in N by (rewrite LS, LF; exact H). cbv beta iota in N.
  assert (NS : nth i S' [] = if latex then t_ "{" ++ nth i S [] ++ t_ "}" else nth i S []).
  { unfold S'. set (g := fun i : text => if latex then braced i else i). destruct (Nat.lt_ge_cases i (length S)); [|lia]. rewrite (nth_indep _ [] (g [])) by (rewrite map_length; lia). rewrite map_nth. reflexivity. }
  rewrite NS in N. unfold written. cbv zeta.
  assert (NF : nth i F' [] = if latex then match nth i F [] with [] => [] | _ => t_ (if mathrm then "\mathrm{" else "{") ++ nth i F [] ++ t_ "}" end else if u then to_unicode sub (nth i F []) else nth i F []).
  { unfold F'. rewrite (nth_indep _ [] (prepared latex mathrm u sub [])) by (rewrite map_length, <- H; exact Li). rewrite map_nth. unfold prepared. destruct latex; [|reflexivity]. destruct (nth i F []), mathrm; reflexivity. }
  rewrite NF in N. set (j := nth i F []) in *. clearbody j. unfold tm in N. split; [|split; [|split]].
  - intros ->. destruct latex; [injection N as N; exact (eq_sym N)|]. destruct u; cbn in N; injection N as N; exact (eq_sym N).
  - intros Nj -> ->. destruct j as [|n j]; [easy|]. destruct (percent _ (n :: j)) as [x|] eqn:P; [|discriminate]. exists x. split; [reflexivity|]. injection N as N; exact (eq_sym N).
  - intros Nj -> ->. destruct j as [|n j]; [easy|]. change (to_unicode sub (n :: j)) with (raise_char sub n :: to_unicode sub j) in *. rewrite percent_s in N. injection N as N; exact (eq_sym N).
  - intros Nj ->. destruct j as [|n j]; [easy|]. set (w := t_ (if mathrm then _ else _) ++ (n :: j) ++ t_ "}") in *. assert (Nw : exists a b, w = a :: b) by (unfold w; destruct mathrm; eexists _, _; reflexivity).
    destruct Nw as (a & b & Ew). rewrite Ew in *. destruct (percent _ (a :: b)) as [x|] eqn:P; [|discriminate]. exists x. split; [reflexivity|]. injection N as N; exact (eq_sym N).
Qed.

(** the defaults *)
Theorem C117_defaults : forall i j, j <> [] ->
  add_suffix defaults (One i) (One j) true None false false = Ok (One (i ++ t_ "_" ++ j)) /\
  add_suffix defaults (One i) (One j) false None false false = Ok (One (i ++ t_ "[" ++ j ++ t_ "]")) /\
  add_suffix defaults (One i) (One j) true None true false = Ok (One (t_ "{" ++ i ++ t_ "}" ++ t_ "_{" ++ t_ "{" ++ j ++ t_ "}" ++ t_ "}")) /\
  add_suffix defaults (One i) (One j) false None true true = Ok (One (t_ "{" ++ i ++ t_ "}" ++ t_ "^{" ++ t_ "\mathrm{" ++ j ++ t_ "}" ++ t_ "}")).
Proof.
  intros i j Nj. assert (V : forall s, existsb (one_of "%") (t_ s) = false -> verbatim (t_ s)).
  { intros s H I. assert (X : existsb (one_of "%") (t_ s) = true) by (apply existsb_exists; exists (ch "%"%char); split; [exact I|reflexivity]). congruence. }
  assert (P1 : forall a, percent (t_ "_%s") a = Ok (t_ "_" ++ a)).
  { intros a. pose proof (C117_plain (t_ "_") [] a (V "_"%string eq_refl) (fun x => x)) as P. now rewrite !app_nil_r in P. }
  assert (P2 : forall a, percent (t_ "[%s]") a = Ok (t_ "[" ++ a ++ t_ "]")).
  { intros a. exact (C117_plain (t_ "[") (t_ "]") a (V "["%string eq_refl) (V "]"%string eq_refl)). }
  assert (P3 : forall a, percent (t_ "_{%s}") a = Ok (t_ "_{" ++ a ++ t_ "}")).
  { intros a. exact (C117_plain (t_ "_{") (t_ "}") a (V "_{"%string eq_refl) (V "}"%string eq_refl)). }
  assert (P4 : forall a, percent (t_ "^{%s}") a = Ok (t_ "^{" ++ a ++ t_ "}")).
  { intros a. exact (C117_plain (t_ "^{") (t_ "}") a (V "^{"%string eq_refl) (V "}"%string eq_refl)). }
  destruct j as [|n j]; [easy|]. set (w := n :: j) in *.
  assert (K : forall (sub latex mathrm : bool) (t x : text), (if latex then (if sub then c_lsub defaults else c_lsup defaults) else if sub then c_sub defaults else c_sup defaults) = t ->
     percent t (if latex then (if mathrm then t_ "\mathrm{" ++ w ++ t_ "}" else t_ "{" ++ w ++ t_ "}") else w) = Ok x ->
     add_suffix defaults (One i) (One w) sub None latex mathrm = Ok (One ((if latex then t_ "{" ++ i ++ t_ "}" else i) ++ x))).
  { intros sub latex mathrm t x Et Ex. unfold Suffix.add_suffix. cbv zeta. cbn [items length Nat.eqb negb is_one andb]. change (c_unicode defaults) with false. cbn iota. rewrite Et.
    cbn [map combine]. assert (Pw : prepared latex mathrm false sub w = if latex then (if mathrm then t_ "\mathrm{" ++ w ++ t_ "}" else t_ "{" ++ w ++ t_ "}") else w) by (destruct latex, mathrm; reflexivity).
    rewrite <- Pw in Ex. assert (Nv : exists a b, prepared latex mathrm false sub w = a :: b) by (rewrite Pw; unfold w; destruct latex, mathrm; eexists _, _; reflexivity). destruct Nv as (a & b & Ev). rewrite Ev in *.
    cbn [mapE]. rewrite Ex. reflexivity. }
  split; [|split; [|split]].
  - rewrite (K true false false _ _ eq_refl (P1 _)). reflexivity.
  - rewrite (K false false false _ _ eq_refl (P2 _)). reflexivity.
  - rewrite (K true true false _ _ eq_refl (P3 _)). now rewrite <- !app_assoc.
  - rewrite (K false true true _ _ eq_refl (P4 _)). now rewrite <- !app_assoc.
Qed.

(** ** labels of the components of a fit *)
(** what a suffix adds: nothing if there is none *)
Definition deco (f : text -> text) (j : text) : text := match j with [] => [] | _ => f j end.
Lemma combine_map_nth {A B C} (f : A * B -> C) a b da db dc i : length a = length b -> i < length a -> nth i (map f (combine a b)) dc = f (nth i a da, nth i b db).
Proof.
  intros L Li. rewrite (nth_indep _ dc (f (da, db))) by (rewrite map_length, combine_length; lia). rewrite map_nth, combine_nth by exact L. reflexivity.
Qed.
Lemma add_many (c : config) (l s : list text) (sub : bool) (f : text -> text) : length l = length s ->
  (forall j : text, j <> [] -> percent (if c_unicode c then t_ "%s" else if sub then c_sub c else c_sup c) (if c_unicode c then to_unicode sub j else j) = Ok (f j)) ->
  add_suffix c (Many l) (Many s) sub None false false = Ok (Many (map (fun p : text * text => fst p ++ deco f (snd p)) (combine l s))).
Proof.
  intros L H. unfold Suffix.add_suffix. cbv zeta. cbn [items is_one andb]. rewrite L, Nat.eqb_refl. cbn [negb].
  set (tm := if c_unicode c then _ else _) in *.
  assert (M : mapE (fun '(i, j) => match j with [] => Ok i | _ => bind (percent tm j) (fun x => Ok (i ++ x)) end) (combine (map (fun i : text => i) l) (map (prepared false false (c_unicode c) sub) s))
    = Ok (map (fun p : text * text => fst p ++ deco f (snd p)) (combine l s))).
  { rewrite map_id. clear L. revert s. induction l as [|i l IH]; intros [|j s]; try reflexivity. cbn [map combine mapE fst snd]. rewrite IH.
    assert (E : match prepared false false (c_unicode c) sub j with [] => Ok i | _ => bind (percent tm (prepared false false (c_unicode c) sub j)) (fun x => Ok (i ++ x)) end = Ok (i ++ deco f j)).
    { destruct j as [|n j]; [unfold prepared; destruct (c_unicode c); cbn; now rewrite app_nil_r|]. specialize (H (n :: j) ltac:(discriminate)).
      assert (Q : exists a b, prepared false false (c_unicode c) sub (n :: j) = a :: b) by (unfold prepared; destruct (c_unicode c); eexists _, _; reflexivity). destruct Q as (a & b & Q).
      change (if c_unicode c then to_unicode sub (n :: j) else n :: j) with (prepared false false (c_unicode c) sub (n :: j)) in H. rewrite Q in *. rewrite H. reflexivity. }
    match goal with |- bind ?X _ = _ => assert (X0 : X = Ok (i ++ deco f j)) by exact E; rewrite X0 end. reflexivity. }
  cbn iota. rewrite M. cbn [bind]. destruct (map (fun p : text * text => fst p ++ deco f (snd p)) (combine l s)) as [|x [|y r]]; reflexivity.
Qed.
Definition key (p : str * str) : str := fst p ++ snd p.
Definition number (comps : list (str * str)) (i : nat) : str := let n := nth i (numbering (map key comps)) 0 in if 1 <? n then nat_str n else [].
Lemma labels_spec c comps fs fp :
  (forall j : text, j <> [] -> percent (if c_unicode c then t_ "%s" else c_sub c) (if c_unicode c then to_unicode true j else j) = Ok (fs j)) ->
  (forall j : text, j <> [] -> percent (if c_unicode c then t_ "%s" else c_sup c) (if c_unicode c then to_unicode false j else j) = Ok (fp j)) ->
  exists l, labels c comps = Ok l /\ length l = length comps /\
  forall i, i < length comps -> nth i l [] = emb (fst (nth i comps ([], []))) ++ deco fs (emb (number comps i)) ++ deco fp (emb (snd (nth i comps ([], [])))).
Proof.
  intros H1 H2. unfold Suffix.labels. cbv zeta. unfold suffix_num. rewrite suffixes_n_spec. change (map (fun p => fst p ++ snd p) comps) with (map key comps).
  set (nums := map _ (numbering (map key comps))). assert (LN : length nums = length comps) by (unfold nums; now rewrite map_length, numbering_length, map_length).
  rewrite (add_many _ _ _ true fs) by (rewrite ?map_length; auto). cbn [bind].
  set (l1 := map _ (combine _ (map emb nums))). assert (L1 : length l1 = length comps) by (unfold l1; rewrite map_length, combine_length, !map_length, LN; lia).
  assert (L2 : length l1 = length (map (fun p : str * str => emb (snd p)) comps)) by (rewrite map_length; exact L1).
  rewrite (add_many c l1 (map (fun p : str * str => emb (snd p)) comps) false fp L2 H2). cbn [bind items]. eexists. split; [reflexivity|].
  split; [rewrite map_length, combine_length, <- L2, Nat.min_id; exact L1|]. intros i Li.
  assert (Li1 : i < length l1) by (rewrite <- L1 in Li; exact Li).
  etransitivity; [exact (combine_map_nth (fun p : text * text => fst p ++ deco fp (snd p)) l1 _ [] [] [] i L2 Li1)|]. cbn [fst snd].
  assert (L3 : length (map (fun p : str * str => emb (fst p)) comps) = length (map emb nums)) by (rewrite !map_length; now symmetry).
  assert (Li3 : i < length (map (fun p : str * str => emb (fst p)) comps)) by (rewrite map_length; exact Li).
  pose proof (combine_map_nth (fun p : text * text => fst p ++ deco fs (snd p)) _ _ [] [] [] i L3 Li3) as N1. cbn [fst snd] in N1.
  etransitivity; [exact (f_equal (fun x => x ++ deco fp (nth i (map (fun p : str * str => emb (snd p)) comps) [])) N1)|]. cbv beta. rewrite <- app_assoc.
  assert (E1 : nth i (map (fun p : str * str => emb (fst p)) comps) [] = emb (fst (nth i comps ([], [])))) by (change (@nil N) with ((fun p : str * str => emb (fst p)) ([], [])) at 1; now rewrite map_nth).
  assert (E2 : nth i (map (fun p : str * str => emb (snd p)) comps) [] = emb (snd (nth i comps ([], [])))) by (change (@nil N) with ((fun p : str * str => emb (snd p)) ([], [])) at 1; now rewrite map_nth).
  assert (E3 : nth i (map emb nums) [] = emb (number comps i)).
  { change (@nil N) with (emb []) at 1. rewrite map_nth. f_equal. exact (map_nth (fun n : nat => if 1 <? n then nat_str n else []) (numbering (map key comps)) 0 i). }
  now rewrite E1, E2, E3.
Qed.
Lemma emb_inj a b : emb a = emb b -> a = b.
Proof.
  revert b. induction a as [|x a IH]; intros [|y b] H; try discriminate; [reflexivity|]. cbn in H. injection H as E H. f_equal; [|now apply IH]. rewrite <- (ascii_N_embedding x), <- (ascii_N_embedding y). now rewrite E.
Qed.
(** two texts made of a part in a class and a part that starts outside of it *)
Lemma zones (P : N -> Prop) l1 r1 l2 r2 : (forall x, List.In x l1 -> P x) -> (forall x, List.In x l2 -> P x) ->
  (forall x r, r1 = x :: r -> ~ P x) -> (forall x r, r2 = x :: r -> ~ P x) -> l1 ++ r1 = l2 ++ r2 -> l1 = l2 /\ r1 = r2.
Proof.
  revert l2. induction l1 as [|a l1 IH]; intros [|b l2] A1 A2 B1 B2 E; cbn [app] in E.
  - auto.
  - exfalso. apply (B1 _ _ E). apply A2. now left.
  - exfalso. apply (B2 a (l1 ++ r1)); [now symmetry|]. apply A1. now left.
  - injection E as -> E. destruct (IH l2) as (-> & ->); auto; intros x H; [apply A1|apply A2]; now right.
Qed.
Lemma number_inj comps i j : i < length comps -> j < length comps -> number comps i = number comps j -> nth i (numbering (map key comps)) 0 = nth j (numbering (map key comps)) 0.
Proof.
  intros Li Lj. unfold number. cbv zeta. pose proof (numbering_pos (map key comps) i ltac:(now rewrite map_length)) as P1. pose proof (numbering_pos (map key comps) j ltac:(now rewrite map_length)) as P2.
  destruct (Nat.ltb_spec 1 (nth i (numbering (map key comps)) 0)) as [H1|H1], (Nat.ltb_spec 1 (nth j (numbering (map key comps)) 0)) as [H2|H2]; intros E.
  - now apply nat_str_inj.
  - now apply nat_str_nonempty in H1.
  - symmetry in E. now apply nat_str_nonempty in H2.
  - lia.
Qed.
(** labels are distinct if name, number and data can be read off them *)
Lemma labels_nodup comps (fs fp : text -> text) (l : list text) : length l = length comps ->
  (forall i, i < length comps -> nth i l [] = emb (fst (nth i comps ([], []))) ++ deco fs (emb (number comps i)) ++ deco fp (emb (snd (nth i comps ([], []))))) ->
  (forall i j, i < length comps -> j < length comps -> nth i l [] = nth j l [] -> fst (nth i comps ([], [])) = fst (nth j comps ([], [])) /\ number comps i = number comps j /\ snd (nth i comps ([], [])) = snd (nth j comps ([], []))) ->
  NoDup l.
Proof.
  intros L _ R. apply (NoDup_by_nth []). intros i j Hij Hj' E. assert (Hj : j < length comps) by (rewrite <- L; exact Hj'). destruct (R i j ltac:(lia) Hj E) as (E1 & E2 & E3).
  apply number_inj in E2; [|lia|exact Hj]. assert (EK : nth i (map key comps) [] = nth j (map key comps) []).
  { change (@nil ascii) with (key ([], [])). rewrite !map_nth. unfold key. now rewrite E1, E3. }
  pose proof (numbering_distinct (map key comps) i j Hij ltac:(now rewrite map_length) EK). lia.
Qed.
Lemma number_digits comps i x : List.In x (emb (number comps i)) -> (48 <= x <= 57)%N.
Proof.
  unfold number. cbv zeta. destruct (1 <? _); [|intros []]. unfold emb. rewrite in_map_iff. intros (c & <- & I). unfold nat_str in I. pose proof (uint_digits (Nat.to_uint (nth i (numbering (map key comps)) 0))) as D. rewrite Forall_forall in D. specialize (D c I).
  unfold is_digit in D. cbn in D. repeat (destruct D as [<-|D]; [cbn; lia|]). destruct D.
Qed.
(** ** distinct labels with templates that put the suffix between two fixed texts, the first of which starts with a character
    that does not occur before it *)
Theorem C117_unique : forall c comps d e pre1 post1 pre2 post2, c_unicode c = false ->
  verbatim (d :: pre1) -> verbatim post1 -> verbatim (e :: pre2) -> verbatim post2 ->
  c_sub c = (d :: pre1) ++ t_ "%s" ++ post1 -> c_sup c = (e :: pre2) ++ t_ "%s" ++ post2 ->
  ~ List.In e ((d :: pre1) ++ post1) -> ~ (48 <= e <= 57)%N -> (forall p, List.In p comps -> ~ List.In d (emb (fst p)) /\ ~ List.In e (emb (fst p))) ->
  exists l, labels c comps = Ok l /\ length l = length comps /\ NoDup l.
Proof.
  intros c comps d e pre1 post1 pre2 post2 U V1 V2 V3 V4 T1 T2 Ne Dg Names.
  destruct (labels_spec c comps (fun j => (d :: pre1) ++ j ++ post1) (fun j => (e :: pre2) ++ j ++ post2)) as (l & E & L & H).
  { intros j _. rewrite U, T1. now apply C117_plain. } { intros j _. rewrite U, T2. now apply C117_plain. }
  exists l. split; [exact E|]. split; [exact L|]. apply (labels_nodup comps (fun j => (d :: pre1) ++ j ++ post1) (fun j => (e :: pre2) ++ j ++ post2) l L H). intros i j Li Lj Q. pose proof (eq_trans (eq_sym (H i Li)) (eq_trans Q (H j Lj))) as Q'. clear Q. rename Q' into Q.
  assert (Nm : forall i, i < length comps -> ~ List.In d (emb (fst (nth i comps ([], [])))) /\ ~ List.In e (emb (fst (nth i comps ([], []))))) by (intros; apply Names, nth_In; assumption).
  assert (Z1 : forall i, i < length comps -> forall x, List.In x (emb (fst (nth i comps ([], []))) ++ deco (fun j => (d :: pre1) ++ j ++ post1) (emb (number comps i))) -> x <> e).
  { intros k Lk x Hx ->. apply in_app_iff in Hx as [Hx|Hx]; [now apply (Nm k Lk)|]. pose proof (number_digits comps k e) as D. destruct (emb (number comps k)) as [|a b]; [destruct Hx|]. unfold deco in Hx.
    rewrite !in_app_iff in Hx. rewrite in_app_iff in Ne. destruct Hx as [Hx|[Hx|Hx]]; [tauto|now apply Dg, D|tauto]. }
  assert (Z2 : forall s x r, deco (fun j => (e :: pre2) ++ j ++ post2) s = x :: r -> ~ x <> e).
  { intros [|a b] x r X; [discriminate|]. cbn in X. injection X as -> _. tauto. }
  assert (Z3 : forall s x r, deco (fun j => (d :: pre1) ++ j ++ post1) s = x :: r -> ~ x <> d).
  { intros [|a b] x r X; [discriminate|]. cbn in X. injection X as -> _. tauto. }
  rewrite !app_assoc in Q. apply (zones (fun x => x <> e)) in Q as (Q1 & Q2); [|now apply Z1|now apply Z1|intros x r X; exact (Z2 _ _ _ X)|intros x r X; exact (Z2 _ _ _ X)].
  apply (zones (fun x => x <> d)) in Q1 as (Q0 & Q1); [|intros x Hx ->; exact (proj1 (Nm i Li) Hx)|intros x Hx ->; exact (proj1 (Nm j Lj) Hx)|intros x r X; exact (Z3 _ _ _ X)|intros x r X; exact (Z3 _ _ _ X)].
  assert (DI : forall h pre post a b, deco (fun j => (h :: pre) ++ j ++ post) a = deco (fun j => (h :: pre) ++ j ++ post) b -> a = b).
  { intros h pre post [|a1 a2] [|b1 b2] X; try reflexivity; try discriminate. unfold deco in X. apply app_inv_head in X. now apply app_inv_tail in X. }
  apply DI in Q1. apply DI in Q2. split; [now apply emb_inj|]. split; now apply emb_inj.
Qed.

(** ** distinct labels with Unicode characters: if the data names consist of letters, digits and [+-/=()] and remain distinct when raised *)
Lemma lookup_in : forall (ks vs : text) x, List.In x ks -> length ks = length vs -> List.In (lookupN (combine ks vs) x) vs.
Proof.
  induction ks as [|k t IH]; intros [|v l] x H L; [destruct H|destruct H|discriminate L|]. cbn [combine lookupN]. destruct (N.eqb_spec x k) as [->|Nk]; [now left|]. right. destruct H as [E|H]; [symmetry in E; contradiction|]. apply IH; [exact H|]. now injection L.
Qed.
Lemma raise_in sub x : List.In x table_keys -> List.In (raise_char sub x) (if sub then subscripts else superscripts).
Proof. intros H. apply lookup_in; [exact H|]. destruct sub; reflexivity. Qed.
Lemma sub_digit_facts : forallb (fun x => negb (existsb (N.eqb (raise_char true x)) superscripts) && (128 <=? raise_char true x)%N)%bool (t_ "0123456789") = true.
Proof. vm_compute. reflexivity. Qed.
Lemma sup_facts : forallb (fun x => 128 <=? x)%N superscripts = true.
Proof. vm_compute. reflexivity. Qed.
Lemma sub_digit_inj : forallb (fun x => forallb (fun y => negb (N.eqb (raise_char true x) (raise_char true y)) || N.eqb x y)%bool (t_ "0123456789")) (t_ "0123456789") = true.
Proof. vm_compute. reflexivity. Qed.
Lemma digit_in x : (48 <= x <= 57)%N -> List.In x (t_ "0123456789").
Proof. intros H. assert (K : exists n, (n < 10)%nat /\ x = (48 + N.of_nat n)%N) by (exists (N.to_nat (x - 48)); split; lia). destruct K as (n & Hn & ->). do 10 (destruct n as [|n]; [cbn; tauto|]). lia. Qed.
Lemma emb_small s x : List.In x (emb s) -> (x < 256)%N.
Proof. unfold emb. rewrite in_map_iff. intros (a & <- & _). destruct a as [[|] [|] [|] [|] [|] [|] [|] [|]]; cbn; lia. Qed.
Theorem C117_unicode_partial : forall c comps, c_unicode c = true ->
  (forall p x, List.In p comps -> List.In x (emb (fst p)) -> (x < 128)%N) ->
  (forall p x, List.In p comps -> List.In x (emb (snd p)) -> List.In x table_keys) ->
  (forall p q, List.In p comps -> List.In q comps -> to_unicode false (emb (snd p)) = to_unicode false (emb (snd q)) -> snd p = snd q) ->
  exists l, labels c comps = Ok l /\ length l = length comps /\ NoDup l.
Proof.
  intros c comps U Asc Tab Inj. destruct (labels_spec c comps (to_unicode true) (to_unicode false)) as (l & E & L & H).
  { intros j _. rewrite U. apply percent_s. } { intros j _. rewrite U. apply percent_s. }
  exists l. split; [exact E|]. split; [exact L|]. apply (labels_nodup comps (to_unicode true) (to_unicode false) l L H). intros i j Li Lj Q. pose proof (eq_trans (eq_sym (H i Li)) (eq_trans Q (H j Lj))) as Q'. clear Q. rename Q' into Q.
  assert (D : forall sub s, deco (to_unicode sub) s = to_unicode sub s) by (intros sub [|a b]; reflexivity). rewrite !D in Q.
  assert (F : forall x, (48 <= x <= 57)%N -> ~ List.In (raise_char true x) superscripts /\ (128 <= raise_char true x)%N).
  { intros x Hx. pose proof sub_digit_facts as K. rewrite forallb_forall in K. specialize (K x (digit_in x Hx)). apply Bool.andb_true_iff in K as (K1 & K2). split; [|now apply N.leb_le].
    intros I. apply Bool.negb_true_iff in K1. assert (X : existsb (N.eqb (raise_char true x)) superscripts = true) by (apply existsb_exists; exists (raise_char true x); split; [exact I|apply N.eqb_refl]). congruence. }
  assert (SF : forall x, List.In x superscripts -> (128 <= x)%N) by (intros x Hx; pose proof sup_facts as K; rewrite forallb_forall in K; now apply N.leb_le, K).
  assert (Z1 : forall i, i < length comps -> forall x, List.In x (emb (fst (nth i comps ([], []))) ++ to_unicode true (emb (number comps i))) -> ~ List.In x superscripts).
  { intros k Lk x Hx S. apply in_app_iff in Hx as [Hx|Hx].
    - apply SF in S. apply (Asc _ x (nth_In comps ([], []) Lk)) in Hx. lia.
    - unfold to_unicode in Hx. apply in_map_iff in Hx as (y & <- & Hy). apply number_digits in Hy. now apply F in S. }
  assert (Z2 : forall i, i < length comps -> forall x r, to_unicode false (emb (snd (nth i comps ([], [])))) = x :: r -> ~ ~ List.In x superscripts).
  { intros k Lk x r X N. apply N. pose proof (fun y => Tab _ y (nth_In comps ([], []) Lk)) as T. destruct (emb (snd (nth k comps ([], [])))) as [|a b]; [discriminate|]. unfold to_unicode in X; cbn [map] in X. injection X as <- _.
    apply (raise_in false). apply T. now left. }
  rewrite !app_assoc in Q. apply (zones (fun x => ~ List.In x superscripts)) in Q as (Q1 & Q2); [|now apply Z1|now apply Z1|now apply Z2|now apply Z2].
  assert (Z3 : forall i x r, to_unicode true (emb (number comps i)) = x :: r -> ~ (x < 128)%N).
  { intros k x r X. pose proof (number_digits comps k) as T. destruct (emb (number comps k)) as [|a b]; [discriminate|]. unfold to_unicode in X; cbn [map] in X. injection X as <- _. specialize (T a (or_introl eq_refl)). apply F in T as (_ & T). apply N.le_ngt. exact T. }
  apply (zones (fun x => (x < 128)%N)) in Q1 as (Q0 & Q1); [|intros x; apply Asc, nth_In; exact Li|intros x; apply Asc, nth_In; exact Lj|apply Z3|apply Z3].
  split; [now apply emb_inj|]. split; [|now apply Inj; [apply nth_In..|]].
  apply emb_inj. pose proof (number_digits comps i) as D1. pose proof (number_digits comps j) as D2. revert D1 D2 Q1. generalize (emb (number comps i)) (emb (number comps j)). induction t as [|a t IH]; intros [|b u] D1 D2 X; try discriminate; [reflexivity|].
  unfold to_unicode in X; cbn [map] in X. injection X as X1 X2. f_equal.
  - pose proof sub_digit_inj as K. rewrite forallb_forall in K. specialize (K a (digit_in a (D1 a (or_introl eq_refl)))). rewrite forallb_forall in K. specialize (K b (digit_in b (D2 b (or_introl eq_refl)))).
    rewrite X1, N.eqb_refl in K. cbn in K. now apply N.eqb_eq.
  - apply IH; [intros x Hx; apply D1; now right|intros x Hx; apply D2; now right|exact X2].
Qed.
(** ** not distinct: data sets named C and c (F, Q, S, Y, Z likewise) with Unicode characters; a template accepted by the settings that shows
    nothing of the suffix *)
Theorem C117_unicode_refuted : exists c l, fst (set_suffix_config defaults c) = c /\ c_unicode c = true /\
  labels c [(s2l "PL", s2l "C"); (s2l "PL", s2l "c")] = Ok l /\ ~ NoDup l.
Proof.
  exists {| c_unicode := true; c_sub := c_sub defaults; c_sup := c_sup defaults; c_lsub := c_lsub defaults; c_lsup := c_lsup defaults |}. eexists. split; [reflexivity|]. split; [reflexivity|]. split; [vm_compute; reflexivity|].
  intros N. inversion N as [|? ? H _]. apply H. now left.
Qed.
Theorem C117_template_refuted : exists c l, fst (set_suffix_config defaults c) = c /\ c_sup c = t_ "[%.0s]" /\
  labels c [(s2l "PL", s2l "d1"); (s2l "PL", s2l "d2")] = Ok l /\ ~ NoDup l.
Proof.
  exists {| c_unicode := false; c_sub := c_sub defaults; c_sup := t_ "[%.0s]"; c_lsub := c_lsub defaults; c_lsup := c_lsup defaults |}. eexists. split; [reflexivity|]. split; [reflexivity|]. split; [vm_compute; reflexivity|].
  intros N. inversion N as [|? ? H _]. apply H. now left.
Qed.
(** ** LaTeX labels with the default templates: the number is that of the plain label *)
Notation latex_labels := (Suffix.latex_labels repr ascii_).
Definition latex_label (name num data : text) : text :=
  t_ "{{" ++ name ++ t_ "}" ++ (match num with [] => [] | _ => t_ "_{{" ++ num ++ t_ "}}" end) ++ t_ "}" ++
  match data with [] => [] | _ => t_ "^{\mathrm{" ++ data ++ t_ "}}" end.
Theorem C117_latex : forall comps latex, length latex = length comps -> exists l, latex_labels defaults comps latex = Ok l /\ length l = length comps /\
  forall i, i < length comps -> nth i l [] = latex_label (nth i latex []) (emb (number comps i)) (emb (snd (nth i comps ([], [])))).
Proof.
  intros comps latex L. unfold Suffix.latex_labels. cbv zeta. unfold suffix_num. rewrite suffixes_n_spec. change (map (fun p => fst p ++ snd p) comps) with (map key comps).
  set (nums := map _ (numbering (map key comps))). assert (LN : length nums = length comps) by (unfold nums; now rewrite map_length, numbering_length, map_length).
  assert (V : forall s, existsb (one_of "%") (t_ s) = false -> verbatim (t_ s)).
  { intros s H I. assert (X : existsb (one_of "%") (t_ s) = true) by (apply existsb_exists; exists (ch "%"%char); split; [exact I|reflexivity]). congruence. }
  assert (P3 : forall a, percent (t_ "_{%s}") a = Ok (t_ "_{" ++ a ++ t_ "}")).
  { intros a. exact (C117_plain (t_ "_{") (t_ "}") a (V "_{"%string eq_refl) (V "}"%string eq_refl)). }
  assert (P4 : forall a, percent (t_ "^{%s}") a = Ok (t_ "^{" ++ a ++ t_ "}")).
  { intros a. exact (C117_plain (t_ "^{") (t_ "}") a (V "^{"%string eq_refl) (V "}"%string eq_refl)). }
  destruct (C117_add defaults (Many latex) (Many (map emb nums)) true None true false good_defaults) as (_ & A1).
  cbn [items] in A1. destruct A1 as (r1 & E1 & _ & L1 & W1); [rewrite map_length; exact (eq_trans L (eq_sym LN))|]. rewrite E1. cbn [bind].
  destruct (C117_add defaults r1 (Many (map (fun p => emb (snd p)) comps)) false None true true good_defaults) as (_ & A2).
  cbn [items] in A2. destruct A2 as (r2 & E2 & _ & L2 & W2); [rewrite map_length; exact (eq_trans L1 L)|]. rewrite E2. cbn [bind].
  exists (items r2). split; [reflexivity|]. split; [exact (eq_trans L2 (eq_trans L1 L))|]. intros i Li.
  assert (Li1 : i < length latex) by (rewrite L; exact Li). assert (Li2 : i < length (items r1)) by (rewrite L1; exact Li1).
  specialize (W1 i Li1). specialize (W2 i Li2).
  assert (E3 : nth i (map emb nums) [] = emb (number comps i)).
  { change (@nil N) with (emb []) at 1. rewrite map_nth. f_equal. exact (map_nth (fun n : nat => if 1 <? n then nat_str n else []) (numbering (map key comps)) 0 i). }
  assert (E4 : nth i (map (fun p : str * str => emb (snd p)) comps) [] = emb (snd (nth i comps ([], [])))) by (change (@nil N) with ((fun p : str * str => emb (snd p)) ([], [])) at 1; now rewrite map_nth).
  rewrite E3 in W1. rewrite E4 in W2. destruct W1 as (W1a & _ & _ & W1d). destruct W2 as (W2a & _ & _ & W2d).
  assert (M1 : nth i (items r1) [] = t_ "{" ++ nth i latex [] ++ t_ "}" ++ match emb (number comps i) with [] => [] | _ => t_ "_{{" ++ emb (number comps i) ++ t_ "}}" end).
  { destruct (emb (number comps i)) as [|a b]; [etransitivity; [exact (W1a eq_refl)|]; now rewrite app_nil_r|].
    destruct (W1d ltac:(discriminate) eq_refl) as (x & X1 & X2). change (c_lsub defaults) with (t_ "_{%s}") in X1. rewrite P3 in X1.
    assert (X3 : x = t_ "_{" ++ (t_ "{" ++ (a :: b) ++ t_ "}") ++ t_ "}") by congruence. etransitivity; [exact X2|]. rewrite X3. now rewrite <- !app_assoc. }
  unfold latex_label. destruct (emb (snd (nth i comps ([], [])))) as [|a b].
  - etransitivity; [exact (W2a eq_refl)|]. etransitivity; [exact (f_equal (fun y => t_ "{" ++ y ++ t_ "}") M1)|]. cbv beta. rewrite app_nil_r, <- !app_assoc. reflexivity.
  - destruct (W2d ltac:(discriminate) eq_refl) as (x & X1 & X2). change (c_lsup defaults) with (t_ "^{%s}") in X1. rewrite P4 in X1.
    assert (X3 : x = t_ "^{" ++ (t_ "\mathrm{" ++ (a :: b) ++ t_ "}") ++ t_ "}") by congruence. etransitivity; [exact X2|]. rewrite X3.
    etransitivity; [exact (f_equal (fun y => (t_ "{" ++ y ++ t_ "}") ++ _) M1)|]. cbv beta. rewrite <- !app_assoc. reflexivity.
Qed.
(** components of the same name and the same LaTeX name have different LaTeX labels *)
Theorem C117_latex_unique : forall comps latex l, length latex = length comps -> latex_labels defaults comps latex = Ok l ->
  forall i j, i < j -> j < length comps -> fst (nth i comps ([], [])) = fst (nth j comps ([], [])) -> nth i latex [] = nth j latex [] -> nth i l [] <> nth j l [].
Proof.
  intros comps latex l L E i j Hij Lj En El Q. destruct (C117_latex comps latex L) as (l' & E' & _ & H). assert (l' = l) by congruence. subst l'.
  pose proof (eq_trans (eq_sym (H i ltac:(lia))) (eq_trans Q (H j Lj))) as Q'. clear Q H E. unfold latex_label in Q'. rewrite El in Q'.
  apply app_inv_head in Q'. apply app_inv_head in Q'. apply app_inv_head in Q'.
  set (dj := match emb (snd (nth j comps ([], []))) with [] => [] | _ => _ end) in Q'. set (di := match emb (snd (nth i comps ([], []))) with [] => [] | _ => _ end) in Q'.
  assert (Dg : forall k x, List.In x (emb (number comps k)) -> (48 <= x <= 57)%N) by (intros k x; apply number_digits).
  assert (Z : emb (number comps i) = emb (number comps j) /\ di = dj).
  { pose proof (Dg i) as Di. pose proof (Dg j) as Dj. destruct (emb (number comps i)) as [|a b], (emb (number comps j)) as [|a' b'].
    - split; [reflexivity|]. change (t_ "}" ++ di = t_ "}" ++ dj) in Q'. exact (app_inv_head _ _ _ Q').
    - discriminate Q'.
    - discriminate Q'.
    - rewrite <- !app_assoc in Q'. apply app_inv_head in Q'.
      apply (zones (fun x => (48 <= x <= 57)%N)) in Q' as (Z1 & Z2); [|exact Di|exact Dj|cbn; intros x r [= <- _]; lia|cbn; intros x r [= <- _]; lia].
      split; [exact Z1|]. apply app_inv_head in Z2. now apply app_inv_head in Z2. }
  destruct Z as (Z1 & Z2). apply emb_inj in Z1. apply number_inj in Z1; [|lia|exact Lj].
  assert (Z3 : emb (snd (nth i comps ([], []))) = emb (snd (nth j comps ([], [])))).
  { unfold di, dj in Z2. destruct (emb (snd (nth i comps ([], [])))) as [|a b], (emb (snd (nth j comps ([], [])))) as [|a' b']; try reflexivity; try discriminate Z2.
    apply app_inv_head in Z2. now apply app_inv_tail in Z2. }
  apply emb_inj in Z3. assert (EK : nth i (map key comps) [] = nth j (map key comps) []).
  { change (@nil ascii) with (key ([], [])). rewrite !map_nth. unfold key. now rewrite En, Z3. }
  pose proof (numbering_distinct (map key comps) i j Hij ltac:(now rewrite map_length) EK). lia.
Qed.

(** the digits of a sub- or superscript are the Unicode digits of that number, and a character without one is kept *)
Theorem C117_digits : forall d : nat, d < 10 ->
  raise_char true (48 + N.of_nat d) = (8320 + N.of_nat d)%N /\
  raise_char false (48 + N.of_nat d) = match d with 1 => 185%N | 2 => 178%N | 3 => 179%N | _ => (8304 + N.of_nat d)%N end.
Proof. intros d H. assert (K : List.In d (seq 0 10)) by (apply in_seq; lia). cbn [seq List.In] in K. repeat (destruct K as [<-|K]; [split; reflexivity|]). destruct K. Qed.
Theorem C117_kept : forall sub c, ~ List.In c table_keys -> raise_char sub c = c.
Proof.
  intros sub c H. unfold raise_char. assert (G : forall l : list (N * N), ~ List.In c (map fst l) -> lookupN l c = c).
  { induction l as [|(k, v) l IH]; intros N; [reflexivity|]. cbn [lookupN]. destruct (N.eqb_spec c k) as [->|Ne]; [exfalso; apply N; now left|]. apply IH. intros I. apply N. now right. }
  apply G. intros I. apply H. apply in_map_iff in I. destruct I as ((k, v) & E & I). cbn [fst] in E. subst k. exact (in_combine_l _ _ _ _ I).
Qed.

(** ** examples *)
Example ex_labels : labels defaults [(s2l "PL", s2l "d1"); (s2l "PL", s2l "d1"); (s2l "PL", [])] = Ok [t_ "PL[d1]"; t_ "PL_2[d1]"; t_ "PL"].
Proof. vm_compute. reflexivity. Qed.
Example ex_unique : exists l, labels defaults [(s2l "PL", s2l "d1"); (s2l "PL", s2l "d1"); (s2l "PL", [])] = Ok l /\ NoDup l.
Proof.
  destruct (C117_unique defaults [(s2l "PL", s2l "d1"); (s2l "PL", s2l "d1"); (s2l "PL", [])] (ch "_") (ch "[") [] [] [] (t_ "]")) as (l & E & _ & N); try reflexivity; try (intros H; cbn in H; intuition discriminate).
  - intros H. cbn in H. destruct H. lia.
  - intros p [<-|[<-|[<-|[]]]]; split; intros H; cbn in H; intuition discriminate.
  - now exists l.
Qed.
Example ex_unicode : exists l, labels {| c_unicode := true; c_sub := t_ "_%s"; c_sup := t_ "[%s]"; c_lsub := t_ "_{%s}"; c_lsup := t_ "^{%s}" |}
  [(s2l "PL", s2l "d1"); (s2l "PL", s2l "d1"); (s2l "PL", s2l "d2+D3")] = Ok l /\ length l = 3 /\ NoDup l.
Proof.
  apply C117_unicode_partial; [reflexivity| | |].
  - intros p x [<-|[<-|[<-|[]]]] H; cbn in H; repeat (destruct H as [<-|H]; [reflexivity|]); destruct H.
  - intros p x [<-|[<-|[<-|[]]]] H; cbn in H; repeat (destruct H as [<-|H]; [cbn; tauto|]); destruct H.
  - intros p q [<-|[<-|[<-|[]]]] [<-|[<-|[<-|[]]]] H; try reflexivity; vm_compute in H; discriminate.
Qed.
Example ex_refused : forall c, set_suffix_config c {| c_unicode := false; c_sub := t_ "_%d"; c_sup := c_sup c; c_lsub := c_lsub c; c_lsup := c_lsup c |} = (c, Some ValueError).
Proof. reflexivity. Qed.
Example ex_accepted : percent (t_ "<%-4.2s|100%%>") (t_ "abc") = Ok (t_ "<ab  |100%>").
Proof. vm_compute. reflexivity. Qed.
Example ex_latex : latex_labels defaults [(s2l "PL", s2l "d"); (s2l "PL", s2l "d")] [t_ "P"; t_ "P"] = Ok [t_ "{{P}}^{\mathrm{d}}"; t_ "{{P}_{{2}}}^{\mathrm{d}}"].
Proof. vm_compute. reflexivity. Qed.
End C117.
Print Assumptions C117_accepted.
Print Assumptions C117_plain.
Print Assumptions C117_no_place.
Print Assumptions C117_set.
Print Assumptions C117_session.
Print Assumptions C117_add.
Print Assumptions C117_defaults.
Print Assumptions C117_unique.
Print Assumptions C117_unicode_partial.
Print Assumptions C117_unicode_refuted.
Print Assumptions C117_template_refuted.
Print Assumptions C117_latex.
Print Assumptions C117_latex_unique.
Print Assumptions C117_digits.
Print Assumptions C117_kept.
Print Assumptions C117_width.
