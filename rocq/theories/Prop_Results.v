(** C46, C47: cached bootstrap and predictive simulations and their p-values. *)
From Coq Require Import Ascii String.
From Verif Require Import RBase Data Namespace NamespaceProofs FitInput HelperData HelperDataProofs Batch BatchProofs Prop_Batch Results ResultsProofs CompileProofs SimulateProofs.
From Coq Require Import List.
Open Scope list_scope.

(** ** vocabulary of the statements *)
(** the parallel factor: the number of devices, or the number asked for if that is smaller *)
Definition factor (devices : nat) (np : option Z) (p : nat) : Prop :=
  (np = None /\ p = devices) \/ exists n, np = Some n /\ (0 < n)%Z /\ Z.of_nat p = Z.min n (Z.of_nat devices).
Definition smallest_multiple (p n N : Z) : Prop := (p | N)%Z /\ (n <= N)%Z /\ forall m, (p | m)%Z -> (n <= m)%Z -> (N <= m)%Z.
(** how many simulations a call asks for, and with which seed *)
Definition asked_number (devices : nat) (a : call_args) (N : Z) : Prop :=
  if a_parallel a then exists p, factor devices (a_np a) p /\ smallest_multiple (Z.of_nat p) (a_n a) N else N = a_n a.
Definition asked_seed (pred : Z) (a : call_args) : Z := match a_seed a with None => pred | Some s => s end.
(** the state of a result object after a history of calls; a call that raises leaves it unchanged *)
Definition play (call : option sim_result -> call_args -> res (option sim_result * bool)) (h : list call_args) : option sim_result :=
  fold_left (fun st a => match call st a with Ok (st', _) => st' | Err _ => st end) h None.
Definition first_call (n seed : Z) : call_args := {| a_n := n; a_seed := Some seed; a_parallel := false; a_np := None |}.

Lemma factor_spec devices np p : get_parallel_number devices np = Ok p <-> factor devices np p.
Proof.
  unfold get_parallel_number, factor. destruct np as [n|].
  - destruct (Z.leb_spec n 0) as [L|L].
    + split; [discriminate|]. intros [[E _]|(m & E & Hm & _)]; [discriminate|]. injection E as <-. lia.
    + split.
      * intros H. injection H as <-. right. exists n. split; [reflexivity|]. split; [exact L|]. destruct (Z.ltb_spec (Z.of_nat devices) n); lia.
      * intros [[E _]|(m & E & Hm & Hp)]; [discriminate|]. injection E as <-. f_equal. destruct (Z.ltb_spec (Z.of_nat devices) n); lia.
  - split; [intros H; injection H as <-; now left|]. intros [[_ ->]|(n & E & _)]; [reflexivity|discriminate].
Qed.
Lemma factor_range devices np p : (0 < devices)%nat -> factor devices np p -> (0 < p <= devices)%nat.
Proof. intros D [[_ ->]|(n & _ & Hn & E)]; lia. Qed.
Lemma round_spec p n : (0 < p)%Z -> let r := (n mod p)%Z in smallest_multiple p n (if negb (r =? 0)%Z then n + (p - r) else n)%Z.
Proof.
  intros Hp r. subst r. pose proof (Z.mod_pos_bound n p Hp) as B. pose proof (Z.div_mod n p ltac:(lia)) as D.
  destruct (Z.eqb_spec (n mod p) 0) as [E|E]; cbn [negb].
  - split; [exists (n / p)%Z; nia|]. split; [lia|]. intros; lia.
  - split; [exists (n / p + 1)%Z; nia|]. split; [lia|]. intros m (q & ->) L.
    assert (n / p < q)%Z by nia. nia.
Qed.

Section Generic.
Variables (devices : nat) (pred : Z) (run : Z -> Z -> bool -> nat -> res sim_result).
Hypothesis dev_pos : (0 < devices)%nat.
Hypothesis run_label : forall seed n par p b, run seed n par p = Ok b -> s_n b = n /\ s_seed b = seed.
Hypothesis run_mode : forall seed n p q, (0 < p <= devices)%nat -> (0 < q <= devices)%nat -> (Z.of_nat p | n)%Z -> run seed n true p = run seed n false q.
Hypothesis run_seq : forall seed n p q, (0 < p <= devices)%nat -> (0 < q <= devices)%nat -> run seed n false p = run seed n false q.
Definition Inv (st : option sim_result) : Prop := match st with None => True | Some b => run (s_seed b) (s_n b) false devices = Ok b end.
Lemma cached_ok st a st' ran : Inv st -> cached devices pred run st a = Ok (st', ran) ->
  exists b, st' = Some b /\ Inv st' /\ asked_number devices a (s_n b) /\ s_seed b = asked_seed pred a /\
    (ran = false <-> exists b0, st = Some b0 /\ a_seed a = Some (s_seed b0) /\ asked_number devices a (s_n b0)).
Proof.
  intros I H. unfold cached in H. destruct (get_parallel_number devices (a_np a)) as [p|] eqn:Ep; [|discriminate]. cbn [bind] in H.
  apply factor_spec in Ep. pose proof (factor_range _ _ _ dev_pos Ep) as Rp.
  destruct ((a_parallel a && (p =? 0)%nat)%bool); [discriminate|].
  set (N := if (a_parallel a && negb (a_n a mod Z.of_nat p =? 0)%Z)%bool then (a_n a + (Z.of_nat p - a_n a mod Z.of_nat p))%Z else a_n a) in *.
  assert (W : forall M, asked_number devices a M <-> M = N).
  { intros M. unfold asked_number. destruct (a_parallel a) eqn:Ea; cbn [andb] in N.
    - pose proof (round_spec (Z.of_nat p) (a_n a) ltac:(lia)) as S. cbn zeta in S. fold N in S. split.
      + intros (p' & Fp & S'). apply factor_spec in Fp, Ep. assert (p' = p) by congruence. subst p'.
        destruct S as (A1 & A2 & A3). destruct S' as (B1 & B2 & B3). apply Z.le_antisymm; auto.
      + intros ->. exists p. now split.
    - unfold N. tauto. }
  assert (Wn : asked_number devices a N) by (now apply W).
  assert (Run : forall seed b, run seed N (a_parallel a) p = Ok b -> run seed N false devices = Ok b).
  { intros seed b Hb. destruct (a_parallel a) eqn:Ea.
    - rewrite <- Hb. symmetry. apply run_mode; [lia|lia|]. unfold asked_number in Wn. rewrite Ea in Wn. destruct Wn as (p' & Fp & S'). apply factor_spec in Fp, Ep. assert (p' = p) by congruence. subst p'. apply S'.
    - rewrite <- Hb. apply run_seq; lia. }
  assert (Fresh : forall seed, bind (run seed N (a_parallel a) p) (fun b => Ok (Some b, true)) = Ok (st', ran) -> seed = asked_seed pred a ->
     exists b, st' = Some b /\ Inv st' /\ asked_number devices a (s_n b) /\ s_seed b = asked_seed pred a /\ ran = true).
  { intros seed Hs Es. destruct (run seed N (a_parallel a) p) as [b|] eqn:Er; [|discriminate]. cbn [bind] in Hs. injection Hs as <- <-. exists b.
    destruct (run_label _ _ _ _ _ Er) as [Ln Ls]. split; [reflexivity|]. split; [cbn [Inv]; rewrite Ln, Ls; now apply Run|]. split; [now apply W|]. split; [congruence|reflexivity]. }
  destruct (a_seed a) as [s|] eqn:Es.
  - destruct st as [b0|].
    + destruct (Z.eqb_spec (s_n b0) N) as [En|En]; [destruct (Z.eqb_spec (s_seed b0) s) as [Esd|Esd]|]; cbn [andb] in H.
      * injection H as <- <-. exists b0. split; [reflexivity|]. split; [exact I|]. split; [now apply W|]. unfold asked_seed. rewrite Es. split; [exact Esd|].
        split; [|easy]. intros _. exists b0. split; [reflexivity|]. split; [congruence|now apply W].
      * destruct (Fresh s H) as (b & E1 & E2 & E3 & E4 & ->); [unfold asked_seed; now rewrite Es|]. exists b. repeat (split; [assumption|]). split; [easy|].
        intros (b1 & E & X & _). injection E as <-. congruence.
      * destruct (Fresh s H) as (b & E1 & E2 & E3 & E4 & ->); [unfold asked_seed; now rewrite Es|]. exists b. repeat (split; [assumption|]). split; [easy|].
        intros (b1 & E & _ & X). injection E as <-. apply W in X. congruence.
    + destruct (Fresh s H) as (b & E1 & E2 & E3 & E4 & ->); [unfold asked_seed; now rewrite Es|]. exists b. repeat (split; [assumption|]). split; [easy|].
      intros (b1 & E & _). discriminate.
  - assert (H' : bind (run pred N (a_parallel a) p) (fun b => Ok (Some b, true)) = Ok (st', ran)) by (destruct st; exact H).
    destruct (Fresh pred H') as (b & E1 & E2 & E3 & E4 & ->); [unfold asked_seed; now rewrite Es|]. exists b. repeat (split; [assumption|]). split; [easy|].
    intros (b1 & _ & E & _). discriminate.
Qed.
Lemma play_inv h : Inv (play (cached devices pred run) h).
Proof.
  unfold play. assert (G : forall st, Inv st -> Inv (fold_left (fun st a => match cached devices pred run st a with Ok (st', _) => st' | Err _ => st end) h st)); [|now apply G].
  induction h as [|a h IH]; intros st I; [exact I|]. cbn [fold_left]. apply IH. destruct (cached devices pred run st a) as [[st' ran]|] eqn:E; [|exact I].
  now destruct (cached_ok _ _ _ _ I E) as (b & _ & I' & _).
Qed.
Lemma first_run n seed : cached devices pred run None (first_call n seed) = bind (run seed n false devices) (fun b => Ok (Some b, true)).
Proof. unfold cached, first_call. cbn [a_np get_parallel_number bind a_parallel andb a_seed a_n]. reflexivity. Qed.
End Generic.

Lemma count_valid fs : count (fun f => ft_valid f = true) fs (length (filter (fun b => b) (map ft_valid fs))).
Proof. induction fs as [|f fs IH]; cbn; [constructor|]. destruct (ft_valid f) eqn:E; cbn; constructor; auto. now rewrite E. Qed.
(** ** the two simulations *)
Section Statements.
Variables (data : dict fdata) (stats : dict stat) (free params : list str) (U : list R -> list R).
Variables (fit : dict (list R) -> list R -> fitted) (devices : nat).
Variable draw : Z -> request -> nat -> str -> nat -> R.
Variables (dev : deviance) (mle : dict R) (mv : dict (list R)) (pred : Z).
Variable select : Z -> Z -> list (nat * nat).
Variables (post : str -> nat -> nat -> R) (models : nat -> nat -> dict (list R)).
Hypothesis dev_pos : (0 < devices)%nat.
(** numpy delivers as many indices as asked for *)
Hypothesis select_len : forall seed n, (0 <= n)%Z -> length (select seed n) = Z.to_nat n.
Notation boot_ := (boot data stats free params U fit devices draw dev mle mv pred).
Notation ppc_ := (ppc data stats free params U fit devices draw dev select post models pred).
Notation run1 := (boot_run data stats free params U fit devices draw dev mle mv).
Notation run2 := (ppc_run data stats free params U fit devices draw dev select post models).

Lemma gpn_of_nat p : (0 < p <= devices)%nat -> get_parallel_number devices (Some (Z.of_nat p)) = Ok p.
Proof. intros H. apply factor_spec. right. exists (Z.of_nat p). split; [reflexivity|]. lia. Qed.
Lemma batch_seq ip sim p q : (0 < p <= devices)%nat -> (0 < q <= devices)%nat ->
  batch_fit data stats free params U fit devices ip sim false (Some (Z.of_nat p)) = batch_fit data stats free params U fit devices ip sim false (Some (Z.of_nat q)).
Proof. intros P Q. unfold batch_fit. now rewrite !gpn_of_nat by assumption. Qed.
Lemma batch_mode ip rows p q : (0 < p <= devices)%nat -> (0 < q <= devices)%nat -> Nat.divide p (length rows) ->
  batch_fit data stats free params U fit devices ip (Many rows) true (Some (Z.of_nat p)) = batch_fit data stats free params U fit devices ip (Many rows) false (Some (Z.of_nat q)).
Proof.
  intros P Q D. rewrite (C45_parallel_is_sequential data stats free params U fit devices ip rows _ p); [now apply batch_seq|now apply gpn_of_nat|lia|exact D].
Qed.
Lemma divide_nat p n : (0 < p)%nat -> (0 <= n)%Z -> (Z.of_nat p | n)%Z -> Nat.divide p (Z.to_nat n).
Proof. intros P N (q & ->). assert (0 <= q)%Z by nia. exists (Z.to_nat q). nia. Qed.
Lemma run1_label seed n par p b : run1 seed n par p = Ok b -> s_n b = n /\ s_seed b = seed.
Proof. unfold boot_run. intros H. apply bind_ok in H as (ip & _ & H). apply bind_ok in H as (rc & _ & H). injection H as <-. now split. Qed.
Lemma run2_label seed n par p b : run2 seed n par p = Ok b -> s_n b = n /\ s_seed b = seed.
Proof. unfold ppc_run. destruct (n <? 0)%Z; [discriminate|]. intros H. apply bind_ok in H as (rc & _ & H). injection H as <-. now split. Qed.
Lemma run1_seq seed n p q : (0 < p <= devices)%nat -> (0 < q <= devices)%nat -> run1 seed n false p = run1 seed n false q.
Proof.
  intros P Q. unfold boot_run. destruct (boot_params free mle) as [ip|]; [|reflexivity]. cbn [bind]. unfold simulate_and_fit.
  destruct (simulate draw data stats seed (Single mv) n) as [s|]; [|reflexivity]. cbn [bind]. now rewrite (batch_seq ip s p q).
Qed.
Lemma run2_seq seed n p q : (0 < p <= devices)%nat -> (0 < q <= devices)%nat -> run2 seed n false p = run2 seed n false q.
Proof.
  intros P Q. unfold ppc_run. destruct (n <? 0)%Z; [reflexivity|]. unfold simulate_and_fit. change (1 <? 1)%Z with false. cbv iota.
  destruct (simulate draw data stats seed _ 1) as [s|]; [|reflexivity]. cbn [bind]. now rewrite (batch_seq _ s p q).
Qed.
Lemma run1_mode seed n p q : (0 < p <= devices)%nat -> (0 < q <= devices)%nat -> (Z.of_nat p | n)%Z -> run1 seed n true p = run1 seed n false q.
Proof.
  intros P Q D. unfold boot_run. destruct (boot_params free mle) as [ip|]; [|reflexivity]. cbn [bind]. unfold simulate_and_fit.
  destruct (simulate draw data stats seed (Single mv) n) as [s|] eqn:Es; [|reflexivity]. cbn [bind].
  apply simulate_single in Es as [(-> & d & ->)|(_ & N0 & rows & -> & L)].
  - unfold batch_fit. now rewrite !gpn_of_nat by assumption.
  - rewrite (batch_mode ip rows p q); [reflexivity|exact P|exact Q|]. rewrite L. apply divide_nat; [lia|exact N0|exact D].
Qed.
Lemma run2_mode seed n p q : (0 < p <= devices)%nat -> (0 < q <= devices)%nat -> (Z.of_nat p | n)%Z -> run2 seed n true p = run2 seed n false q.
Proof.
  intros P Q D. unfold ppc_run. destruct (Z.ltb_spec n 0) as [L|L]; [reflexivity|]. unfold simulate_and_fit. change (1 <? 1)%Z with false. cbv iota.
  destruct (simulate draw data stats seed _ 1) as [s|] eqn:Es; [|reflexivity]. cbn [bind].
  apply simulate_many in Es as (rows & -> & Lr). rewrite (batch_mode _ rows p q); [reflexivity|exact P|exact Q|]. rewrite Lr, map_length, select_len by exact L. now apply divide_nat; [lia| |].
Qed.

(** After every history of calls, a successful call of [boot] leaves the result of the number and the seed it asked for:
    the one a first call on a new result object would produce, sequentially, with that number and seed.  It simulates
    nothing exactly when its seed was given explicitly and the stored result already has that number and seed. *)
Theorem C46_boot_cache : forall h a st ran, boot_ (play boot_ h) a = Ok (st, ran) ->
  exists b, st = Some b /\ asked_number devices a (s_n b) /\ s_seed b = asked_seed pred a /\
    boot_ None (first_call (s_n b) (s_seed b)) = Ok (Some b, true) /\
    (ran = false <-> exists b0, play boot_ h = Some b0 /\ a_seed a = Some (s_seed b0) /\ asked_number devices a (s_n b0)).
Proof.
  intros h a st ran H. unfold boot in *.
  pose proof (play_inv devices pred run1 dev_pos run1_label run1_mode run1_seq h) as I.
  destruct (cached_ok devices pred run1 dev_pos run1_label run1_mode run1_seq _ _ _ _ I H) as (b & -> & I' & A & B & C).
  exists b. split; [reflexivity|]. split; [exact A|]. split; [exact B|]. split; [|exact C].
  rewrite first_run. cbn [Inv] in I'. now rewrite I'.
Qed.
Theorem C46_ppc_cache : forall h a st ran, ppc_ (play ppc_ h) a = Ok (st, ran) ->
  exists b, st = Some b /\ asked_number devices a (s_n b) /\ s_seed b = asked_seed pred a /\
    ppc_ None (first_call (s_n b) (s_seed b)) = Ok (Some b, true) /\
    (ran = false <-> exists b0, play ppc_ h = Some b0 /\ a_seed a = Some (s_seed b0) /\ asked_number devices a (s_n b0)).
Proof.
  intros h a st ran H. unfold ppc in *.
  pose proof (play_inv devices pred run2 dev_pos run2_label run2_mode run2_seq h) as I.
  destruct (cached_ok devices pred run2 dev_pos run2_label run2_mode run2_seq _ _ _ _ I H) as (b & -> & I' & A & B & C).
  exists b. split; [reflexivity|]. split; [exact A|]. split; [exact B|]. split; [|exact C].
  rewrite first_run. cbn [Inv] in I'. now rewrite I'.
Qed.
(** repeating a call: nothing is simulated when the seed was given explicitly ... *)
Theorem C46_repeated_call : forall h a st ran, a_seed a <> None ->
  (boot_ (play boot_ h) a = Ok (st, ran) -> boot_ st a = Ok (st, false)) /\ (ppc_ (play ppc_ h) a = Ok (st, ran) -> ppc_ st a = Ok (st, false)).
Proof.
  assert (G : forall run st0 a st ran, a_seed a <> None -> (forall seed n par p b, run seed n par p = Ok b -> s_n b = n /\ s_seed b = seed) ->
     cached devices pred run st0 a = Ok (st, ran) -> cached devices pred run st a = Ok (st, false)).
  { intros run st0 a st ran Ns Lb H. unfold cached in *. destruct (get_parallel_number devices (a_np a)) as [p|]; [|discriminate]. cbn [bind] in *.
    destruct (_ && _)%bool eqn:Ez; [discriminate|]. clear Ez.
    set (N := if (_ && negb _)%bool then _ else _) in *. destruct (a_seed a) as [s|]; [|easy].
    destruct (match st0 with Some b => _ | None => _ end) eqn:Er.
    - injection H as <- <-. now rewrite Er.
    - destruct (run s N (a_parallel a) p) as [b|] eqn:Eb; [|discriminate]. cbn [bind] in H. injection H as <- <-. destruct (Lb _ _ _ _ _ Eb) as [-> ->]. now rewrite !Z.eqb_refl. }
  intros h a st ran Ns. split; intros H.
  - apply (G run1 _ _ _ _ Ns run1_label H).
  - apply (G run2 _ _ _ _ Ns run2_label H).
Qed.
(** ... but with the default seed everything is simulated again, every time *)
Theorem C46_default_seed_refuted : forall h a st ran, a_seed a = None ->
  (boot_ (play boot_ h) a = Ok (st, ran) -> ran = true /\ boot_ st a = Ok (st, true)) /\
  (ppc_ (play ppc_ h) a = Ok (st, ran) -> ran = true /\ ppc_ st a = Ok (st, true)).
Proof.
  assert (G : forall run st0 a st ran, a_seed a = None -> cached devices pred run st0 a = Ok (st, ran) -> ran = true /\ cached devices pred run st a = Ok (st, true)).
  { intros run st0 a st ran Ns H. unfold cached in *. destruct (get_parallel_number devices (a_np a)) as [p|]; [|discriminate]. cbn [bind] in *.
    destruct (_ && _)%bool eqn:Ez; [discriminate|]. clear Ez. set (N := if (_ && negb _)%bool then _ else _) in *. rewrite Ns in *.
    assert (F : forall s : option sim_result, match s with Some _ => false | None => false end = false) by (intros []; reflexivity).
    rewrite (F st0) in H. rewrite (F st). destruct (run pred N (a_parallel a) p) as [b|]; [|discriminate]. cbn [bind] in *. injection H as <- <-. now split. }
  intros h a st ran Ns. split; intros H; now apply (G _ _ _ _ _ Ns H).
Qed.
(** a bootstrap with a single simulation always fails *)
Theorem C46_single_refuted : forall h a, asked_number devices a 1 -> exists e, boot_ (play boot_ h) a = Err e.
Proof.
  intros h a W. destruct (boot_ (play boot_ h) a) as [[st ran]|e] eqn:E; [exfalso|eauto].
  destruct (C46_boot_cache h a st ran E) as (b & -> & Wb & _ & F & _).
  assert (s_n b = 1)%Z as E1.
  { unfold asked_number in *. destruct (a_parallel a); [|congruence]. destruct W as (p & Fp & S1 & S2 & S3). destruct Wb as (p' & Fp' & T1 & T2 & T3).
    apply factor_spec in Fp, Fp'. assert (p' = p) by congruence. subst p'. apply Z.le_antisymm; auto. }
  rewrite E1 in F. unfold boot in F. rewrite first_run in F. unfold boot_run in F. destruct (boot_params free mle) as [ip|]; [|discriminate]. cbn [bind] in F.
  unfold simulate_and_fit in F. destruct (simulate draw data stats (s_seed b) (Single mv) 1) as [s|] eqn:Es; [|discriminate]. cbn [bind] in F.
  apply simulate_single in Es as [(_ & d & ->)|(N & _)]; [|easy]. unfold batch_fit in F. destruct (get_parallel_number _ _); cbn [bind] in F; discriminate.
Qed.

(** *** C47 *)
(** every p-value is the proportion, among the simulations whose fit is valid, of those at least as deviant as the data *)
Definition pvalues_right (b : sim_result) (fs : list fitted) : Prop :=
  proportion (fun f => ft_valid f = true) (fun f => d_total dev <= ft_total f) fs (p_total b) /\
  forall k, In k (map fst stats) ->
    (exists q, get (p_group b) k = Some q /\ proportion (fun f => ft_valid f = true) (fun f => d_group dev k <= ft_group f k) fs q) /\
    (exists qs, get (p_point b) k = Some qs /\ length qs = length (d_point dev k) /\
       forall j o q, nth_error (d_point dev k) j = Some o -> nth_error qs j = Some q ->
         proportion (fun f => ft_valid f = true) (fun f => o <= nth j (ft_point f k) 0) fs q).
Lemma pvalues_of rep r n seed fs : of_fits stats params fs r -> pvalues_right (sim_result_of rep dev r n seed) fs.
Proof.
  intros (Et & Ev & Eg & Ep & _). unfold pvalues_right, sim_result_of. cbn [p_total p_group p_point keep_result r_total r_group r_point].
  rewrite Et, Ev. split; [apply pvalue_spec|]. intros k Hk. split.
  - rewrite (get_map (fun k v => pvalue (d_group dev k) v)), get_keep_tree, (Eg k Hk). cbn [option_map]. eexists. split; [reflexivity|]. apply pvalue_spec.
  - rewrite (get_map (fun k v => pvalues (d_point dev k) v)), get_keep_tree, (Ep k Hk). cbn [option_map]. eexists. split; [reflexivity|]. split; [unfold pvalues; now rewrite map_length, seq_length|].
    intros j o q Ho Hq. unfold pvalues in Hq. assert (L : (j < length (d_point dev k))%nat) by (apply nth_error_Some; congruence).
    rewrite (nth_error_nth' _ None) in Hq by (rewrite map_length, seq_length; exact L). injection Hq as <-.
    rewrite nth_seq_map by exact L. rewrite (nth_error_nth _ _ 0 Ho). rewrite keep_map, map_map, <- keep_map. apply pvalue_spec.
Qed.
(** the fits behind a stored result: as many as asked for, one for every simulated data set *)
Theorem C47_boot_pvalues : forall h b, play boot_ h = Some b ->
  exists fs, Z.of_nat (length fs) = s_n b /\ pvalues_right b fs /\ count (fun f => ft_valid f = true) fs (s_nvalid b).
Proof.
  intros h b H. pose proof (play_inv devices pred run1 dev_pos run1_label run1_mode run1_seq h) as I. unfold boot in H. rewrite H in I. cbn [Inv] in I.
  unfold boot_run in I. apply bind_ok in I as (ip & _ & I). apply bind_ok in I as ([r calls] & Hr & I). cbn [fst] in I. injection I as I.
  unfold simulate_and_fit in Hr. apply bind_ok in Hr as (sim & Hs & Hr). apply batch_fits in Hr as (rows & -> & _ & Lc & F).
  exists (map (fun c : call => fit (fst c) (snd c)) calls). split; [|split].
  - rewrite map_length. change (Z.of_nat (@length call calls) = s_n b). rewrite Lc. apply simulate_single in Hs as [(_ & d & E)|(_ & N0 & rows' & E & L)]; [discriminate|]. injection E as <-. rewrite L. lia.
  - rewrite <- I. now apply pvalues_of.
  - rewrite <- I. cbn [sim_result_of s_nvalid]. destruct F as (_ & Ev & _). rewrite Ev. apply count_valid.
Qed.
Theorem C47_ppc_pvalues : forall h b, play ppc_ h = Some b ->
  exists fs, Z.of_nat (length fs) = s_n b /\ pvalues_right b fs /\ count (fun f => ft_valid f = true) fs (s_nvalid b).
Proof.
  intros h b H. pose proof (play_inv devices pred run2 dev_pos run2_label run2_mode run2_seq h) as I. unfold ppc in H. rewrite H in I. cbn [Inv] in I.
  unfold ppc_run in I. destruct (Z.ltb_spec (s_n b) 0) as [L0|L0]; [discriminate|]. apply bind_ok in I as ([r calls] & Hr & I). cbn [fst] in I. injection I as I.
  unfold simulate_and_fit in Hr. change (1 <? 1)%Z with false in Hr. cbv iota in Hr. apply bind_ok in Hr as (sim & Hs & Hr). apply batch_fits in Hr as (rows & -> & _ & Lc & F).
  exists (map (fun c : call => fit (fst c) (snd c)) calls). split; [|split].
  - rewrite map_length. change (Z.of_nat (@length call calls) = s_n b). rewrite Lc. apply simulate_many in Hs as (rows' & E & L). injection E as <-. rewrite L, map_length, select_len by exact L0. lia.
  - rewrite <- I. now apply pvalues_of.
  - rewrite <- I. cbn [sim_result_of s_nvalid]. destruct F as (_ & Ev & _). rewrite Ev. apply count_valid.
Qed.
(** hence a number between 0 and 1, unless no simulation was valid *)
Theorem C47_in_unit : forall h b, play boot_ h = Some b \/ play ppc_ h = Some b -> (0 < s_nvalid b)%nat ->
  (exists x, p_total b = Some x /\ 0 <= x <= 1) /\
  forall k, In k (map fst stats) ->
    (exists x, get (p_group b) k = Some (Some x) /\ 0 <= x <= 1) /\
    (exists qs, get (p_point b) k = Some qs /\ length qs = length (d_point dev k) /\ Forall (fun q => exists x, q = Some x /\ 0 <= x <= 1) qs).
Proof.
  intros h b H V. assert (F : exists fs, Z.of_nat (length fs) = s_n b /\ pvalues_right b fs /\ count (fun f => ft_valid f = true) fs (s_nvalid b)).
  { destruct H as [H|H]; [now apply C47_boot_pvalues in H|now apply C47_ppc_pvalues in H]. }
  destruct F as (fs & _ & (Pt & Pk) & Cv).
  assert (D : forall (P : fitted -> Prop) q, proportion (fun f => ft_valid f = true) P fs q -> exists x, q = Some x /\ 0 <= x <= 1).
  { intros P q (m & k & Cm & Ck & Z0 & S0). pose proof (count_fun _ _ _ _ Cm Cv) as ->. exists (INR k / INR (s_nvalid b)). rewrite (S0 V). split; [reflexivity|].
    apply (proportion_unit (fun f => ft_valid f = true) P fs (Some (INR k / INR (s_nvalid b)))); [|reflexivity]. exists (s_nvalid b), k. split; [exact Cm|]. split; [exact Ck|]. split; [lia|reflexivity]. }
  split; [exact (D _ _ Pt)|]. intros k Hk. destruct (Pk k Hk) as ((q & Eq & Pq) & (qs & Es & Ls & Ps)). split.
  - destruct (D _ _ Pq) as (x & -> & Hx). eauto.
  - exists qs. split; [exact Es|]. split; [exact Ls|]. apply Forall_forall. intros q0 Hq. apply In_nth_error in Hq as [j Hj].
    assert (L : (j < length (d_point dev k))%nat) by (rewrite <- Ls; apply nth_error_Some; congruence).
    destruct (nth_error (d_point dev k) j) as [o|] eqn:Eo; [|apply nth_error_None in Eo; lia]. exact (D _ _ (Ps j o q0 Eo Hj)).
Qed.
(** the goodness of fit reports exactly these p-values, under the names of the data sets and "total" *)
Theorem C47_gof : map fst data = map fst stats -> NoDup (map fst stats) -> (forall k, In k (map fst stats) -> k <> total_key) ->
  forall h b, play boot_ h = Some b \/ play ppc_ h = Some b ->
  exists g, gof data (Some b) = Ok g /\ (forall k, In k (map fst g) <-> In k (map fst stats) \/ k = total_key) /\
    get g total_key = Some (p_total b) /\ forall k, In k (map fst stats) -> get g k = get (p_group b) k.
Proof.
  intros Ek Nd Nt h b H. assert (F : exists fs, Z.of_nat (length fs) = s_n b /\ pvalues_right b fs /\ count (fun f => ft_valid f = true) fs (s_nvalid b)).
  { destruct H as [H|H]; [now apply C47_boot_pvalues in H|now apply C47_ppc_pvalues in H]. }
  destruct F as (fs & _ & (_ & Pk) & _). unfold gof.
  set (pt := put (p_group b) total_key (p_total b)).
  assert (Kn : forall k, In k (map fst (ndata data)) <-> In k (map fst stats) \/ k = total_key).
  { intros k. unfold ndata. rewrite <- Ek. rewrite get_some_iff, get_put. destruct (str_eqb_spec k total_key) as [E|N]; [split; [now right|eauto]|].
    rewrite <- get_some_iff, puts_keys. cbn [map In]. rewrite map_map. cbn [fst]. tauto. }
  assert (Gp : forall k, In k (map fst (ndata data)) -> exists v, get pt k = Some v /\ (k = total_key -> v = p_total b) /\ (k <> total_key -> get (p_group b) k = Some v)).
  { intros k Hk. unfold pt. rewrite get_put. destruct (str_eqb_spec k total_key) as [E|N]; [exists (p_total b); split; [reflexivity|]; split; [reflexivity|easy]|].
    apply Kn in Hk as [Hk|Hk]; [|easy]. destruct (Pk k Hk) as ((q & Eq & _) & _). exists q. split; [exact Eq|]. split; [easy|]. now intros _. }
  assert (M : exists g, mapE (fun k => bind (opt_err KeyError (get pt k)) (fun v => Ok (k, v))) (map fst (ndata data)) = Ok g /\ map fst g = map fst (ndata data) /\ forall k v, In (k, v) g -> get pt k = Some v).
  { clear Kn. revert Gp. generalize (map fst (ndata data)) as ks. induction ks as [|k ks IH]; intros Gp; [exists []; split; [reflexivity|]; split; [reflexivity|easy]|].
    destruct IH as (g & E1 & E2 & E3); [intros x Hx; apply Gp; now right|]. destruct (Gp k (or_introl eq_refl)) as (v & Ev & _). exists ((k, v) :: g).
    cbn [mapE]. rewrite Ev. cbn [opt_err bind]. rewrite E1. cbn [bind]. split; [reflexivity|]. split; [cbn; now rewrite E2|]. intros k' v' [E|Hin]; [injection E as <- <-; exact Ev|now apply E3]. }
  destruct M as (g & E1 & E2 & E3). exists g. split; [exact E1|]. split; [intros k; rewrite E2; apply Kn|].
  assert (Gg : forall k, In k (map fst g) -> get g k = get pt k).
  { intros k Hk. apply get_some_iff in Hk as [v Hv]. rewrite Hv. symmetry. apply E3. now apply get_in. }
  split.
  - rewrite Gg by (rewrite E2; apply Kn; now right). destruct (Gp total_key) as (v & Ev & Ht & _); [apply Kn; now right|]. rewrite Ev. now rewrite (Ht eq_refl).
  - intros k Hk. assert (Hin : In k (map fst (ndata data))) by (apply Kn; now left). rewrite Gg by (now rewrite E2). destruct (Gp k Hin) as (v & Ev & _ & Hv). rewrite Ev. symmetry. now apply Hv, Nt.
Qed.

(** *** C64: the rows of a stored result belong together *)
(** the arrays of the result list, in order, the simulations with a valid fit: the data and what was fitted to them *)
Definition rows_of (sims : list (dict (list R) * fitted)) (r : result) : Prop :=
  let good := filter (fun s => ft_valid (snd s)) sims in
  r_data r = map fst good /\ r_total r = map (fun s => ft_total (snd s)) good /\
  (forall k, In k params -> get (r_params r) k = Some (map (fun s => ft_param (snd s) k) good)) /\
  (forall k, In k (model_names stats) -> get (r_models r) k = Some (map (fun s => ft_model (snd s) k) good)) /\
  (forall k, In k (map fst stats) -> get (r_group r) k = Some (map (fun s => ft_group (snd s) k) good) /\ get (r_point r) k = Some (map (fun s => ft_point (snd s) k) good)).
(** a fit of these data from the starting value of row [i] *)
Definition fit_of_row (ip : dict nd) (i : nat) (s : dict (list R) * fitted) : Prop :=
  exists d y, restricted (group_names stats) (fst s) d /\ own_start ip free i y /\ snd s = fit d (U y).
Lemma rows_of_batch ip sim parallel np r calls : batch_fit data stats free params U fit devices ip sim parallel np = Ok (r, calls) ->
  exists rows sims, sim = Many rows /\ map fst sims = rows /\ (forall i s, nth_error sims i = Some s -> fit_of_row ip i s) /\ rows_of sims (keep_result r) /\
    length (filter (fun s => ft_valid (snd s)) sims) = length (filter (fun b => b) (r_valid r)).
Proof.
  intros H. pose proof (C45_each_once data stats free params U fit devices _ _ _ _ _ _ H) as (rows & Es & _ & _ & Row).
  apply batch_fits in H as (rows' & Es' & Ed & Lc & (Et & Ev & Eg & Ep & Epar & Em)). rewrite Es in Es'. injection Es' as <-.
  set (fs := map (fun c : call => fit (fst c) (snd c)) calls) in *. set (sims := combine rows fs).
  assert (Ll : length fs = length rows) by (unfold fs; rewrite map_length; exact Lc).
  assert (F1 : map fst sims = rows) by (unfold sims; revert Ll; generalize fs; clear; induction rows as [|x l IH]; intros [|y m] E; try discriminate; cbn; [reflexivity|f_equal; apply IH; now injection E]).
  assert (F2 : map snd sims = fs) by (unfold sims; revert Ll; generalize fs; clear; induction rows as [|x l IH]; intros [|y m] E; try discriminate; cbn; [reflexivity|f_equal; apply IH; now injection E]).
  assert (Fv : r_valid r = map (fun s => ft_valid (snd s)) sims) by (rewrite Ev, <- F2, map_map; reflexivity).
  assert (Km : forall A (g : fitted -> A), keep (r_valid r) (map g fs) = map (fun s => g (snd s)) (filter (fun s => ft_valid (snd s)) sims)).
  { intros A g. rewrite Fv, <- F2, map_map. apply (keep_map (fun s => ft_valid (snd s)) (fun s => g (snd s))). }
  exists rows, sims. split; [exact Es|]. split; [exact F1|]. split; [|split].
  - intros i s Hs. assert (Hr : nth_error rows i = Some (fst s)) by (rewrite <- F1; now apply map_nth_error).
    destruct (Row i (fst s) Hr) as (d & y & R1 & R2 & Rc & _). exists d, y. split; [exact R1|]. split; [exact R2|].
    assert (Hf : nth_error fs i = Some (snd s)) by (rewrite <- F2; now apply map_nth_error).
    unfold fs in Hf. rewrite (map_nth_error (fun c : call => fit (fst c) (snd c)) i calls Rc) in Hf. cbn [fst snd] in Hf. now injection Hf as <-.
  - unfold rows_of. cbn [keep_result r_data r_total r_params r_models r_group r_point]. rewrite Ed, Et, <- F1. split; [|split; [apply Km|]].
    + rewrite Fv. apply (keep_map (fun s => ft_valid (snd s)) fst).
    + split; [|split]; [intros k Hk; rewrite get_keep_tree, (Epar k Hk)|intros k Hk; rewrite get_keep_tree, (Em k Hk)|intros k Hk; rewrite !get_keep_tree, (Eg k Hk), (Ep k Hk); split]; cbn [option_map]; f_equal; apply (Km _ (fun f => _ f k)).
  - rewrite Fv. clear. induction sims as [|s l IH]; [reflexivity|]. cbn. destruct (ft_valid (snd s)); cbn; now rewrite IH.
Qed.
Theorem C64_boot_rows : forall h b, play boot_ h = Some b ->
  exists ip sims, boot_params free mle = Ok ip /\ Z.of_nat (length sims) = s_n b /\ (forall i s, nth_error sims i = Some s -> fit_of_row ip i s) /\
    rows_of sims (s_fit b) /\ length (filter (fun s => ft_valid (snd s)) sims) = s_nvalid b.
Proof.
  intros h b H. pose proof (play_inv devices pred run1 dev_pos run1_label run1_mode run1_seq h) as I. unfold boot in H. rewrite H in I. cbn [Inv] in I.
  unfold boot_run in I. apply bind_ok in I as (ip & Ei & I). apply bind_ok in I as ([r calls] & Hr & I). cbn [fst] in I. injection I as I.
  unfold simulate_and_fit in Hr. apply bind_ok in Hr as (sim & Hs & Hr). apply rows_of_batch in Hr as (rows & sims & -> & F1 & F2 & F3 & F4).
  exists ip, sims. split; [exact Ei|]. split; [|split; [exact F2|split]].
  - apply simulate_single in Hs as [(_ & d & E)|(_ & N0 & rows' & E & L)]; [discriminate|]. injection E as <-. rewrite <- F1, map_length in L. rewrite L. lia.
  - rewrite <- I. exact F3.
  - rewrite <- I. exact F4.
Qed.
(** for the predictive check, the parameters and models from which the data were simulated are all kept: they are aligned
    with the fits only when every fit is valid *)
Theorem C64_ppc_rows_partial : forall h b, play ppc_ h = Some b ->
  exists sims, Z.of_nat (length sims) = s_n b /\ (forall i s, nth_error sims i = Some s -> fit_of_row (ppc_params free post (select (s_seed b) (s_n b))) i s) /\
    rows_of sims (s_fit b) /\ length (filter (fun s => ft_valid (snd s)) sims) = s_nvalid b /\
    s_rep b = Some (ppc_params free post (select (s_seed b) (s_n b)), map (fun x => models (fst x) (snd x)) (select (s_seed b) (s_n b))).
Proof.
  intros h b H. pose proof (play_inv devices pred run2 dev_pos run2_label run2_mode run2_seq h) as I. unfold ppc in H. rewrite H in I. cbn [Inv] in I.
  unfold ppc_run in I. destruct (Z.ltb_spec (s_n b) 0) as [L0|L0]; [discriminate|]. apply bind_ok in I as ([r calls] & Hr & I). cbn [fst] in I. injection I as I.
  unfold simulate_and_fit in Hr. change (1 <? 1)%Z with false in Hr. cbv iota in Hr. apply bind_ok in Hr as (sim & Hs & Hr). apply rows_of_batch in Hr as (rows & sims & -> & F1 & F2 & F3 & F4).
  exists sims. split; [|split; [exact F2|split; [|split]]].
  - apply simulate_many in Hs as (rows' & E & L). injection E as <-. rewrite <- F1, !map_length in L. rewrite L, select_len by exact L0. lia.
  - rewrite <- I. exact F3.
  - rewrite <- I. exact F4.
  - rewrite <- I at 1. reflexivity.
Qed.
(** each simulation is made, and fitted, from one draw of the posterior: the same draw for all parameters and for the model *)
Theorem C64_ppc_draws : forall h b, play ppc_ h = Some b -> exists ip ms, s_rep b = Some (ip, ms) /\ map fst ip = free /\
  length ms = length (select (s_seed b) (s_n b)) /\
  forall i c d, nth_error (select (s_seed b) (s_n b)) i = Some (c, d) ->
    nth_error ms i = Some (models c d) /\ forall k, In k free -> exists v, get ip k = Some (Ve v) /\ length v = length ms /\ nth_error v i = Some (post k c d).
Proof.
  intros h b H. destruct (C64_ppc_rows_partial h b H) as (sims & _ & _ & _ & _ & E). eexists _, _. split; [exact E|].
  split; [unfold ppc_params; rewrite map_map; cbn [fst]; apply map_id|]. split; [apply map_length|].
  intros i c d Hi. split; [rewrite (map_nth_error _ _ _ Hi); reflexivity|]. intros k Hk.
  exists (map (fun x => post k (fst x) (snd x)) (select (s_seed b) (s_n b))). split; [|split; [now rewrite !map_length|rewrite (map_nth_error _ _ _ Hi); reflexivity]].
  unfold ppc_params. clear - Hk. induction free as [|k' l IH]; [destruct Hk|]. cbn [map get]. destruct (str_eqb_spec k k') as [->|N]; [reflexivity|]. apply IH. destruct Hk as [<-|Hk]; [easy|exact Hk].
Qed.
End Statements.
Print Assumptions C46_boot_cache.
Print Assumptions C46_ppc_cache.
Print Assumptions C46_repeated_call.
Print Assumptions C46_default_seed_refuted.
Print Assumptions C46_single_refuted.
Print Assumptions C47_boot_pvalues.
Print Assumptions C47_ppc_pvalues.
Print Assumptions C47_in_unit.
Print Assumptions C47_gof.
Print Assumptions C64_boot_rows.
Print Assumptions C64_ppc_rows_partial.
Print Assumptions C64_ppc_draws.

(** ** a concrete fit: one data set with one channel, one parameter, two devices *)
Definition ex_data : dict fdata := [(s2l "A", {| f_name := s2l "A"; f_counts := [4]; f_errors := [2]; f_poisson := true; f_exposure := 1; f_area := [1]; f_back := None;
  f_net := [4]; f_net_errors := [2]; f_ce := [4]; f_emin := [1]; f_emax := [2]; f_matrix := [[1]] |})].
Definition ex_stats : dict stat := [(s2l "A", Cstat)].
Definition ex_fit (ok : bool) (d : dict (list R)) (y : list R) : fitted :=
  {| ft_param := fun _ => hd 0 y; ft_model := fun _ => y; ft_total := hd 0 (concat (map snd d)); ft_group := fun _ => hd 0 (concat (map snd d)); ft_point := fun _ => concat (map snd d); ft_valid := ok |}.
Definition ex_draw (seed : Z) (rq : request) (r : nat) (k : str) (c : nat) : R := INR r.
Definition ex_dev : deviance := {| d_total := 1; d_group := fun _ => 1; d_point := fun _ => [1] |}.
Definition ex_mle : dict R := [(s2l "K", 4)].
Definition ex_mv : dict (list R) := [(model_name (on_name (s2l "A")), [4])].
Definition ex_boot ok := boot ex_data ex_stats [s2l "K"] [s2l "K"] (fun y => y) (ex_fit ok) 2 ex_draw ex_dev ex_mle ex_mv 42.
Definition ex_select (seed n : Z) : list (nat * nat) := repeat (0, 0)%nat (Z.to_nat n).
Definition ex_ppc ok := ppc ex_data ex_stats [s2l "K"] [s2l "K"] (fun y => y) (ex_fit ok) 2 ex_draw ex_dev ex_select (fun _ _ _ => 4) (fun _ _ => ex_mv) 42.
Definition ex_args (n : Z) (seed : option Z) : call_args := {| a_n := n; a_seed := seed; a_parallel := true; a_np := None |}.
Lemma ex_boot_runs ok : exists b, ex_boot ok None (ex_args 3 (Some 7%Z)) = Ok (Some b, true) /\ s_n b = 4%Z /\ s_nvalid b = (if ok then 4 else 0)%nat.
Proof.
  eexists. split; [lazy -[pvalue pvalues Rplus Rmult Rdiv Rminus Rinv IZR INR]; reflexivity|]. split; [reflexivity|]. destruct ok; reflexivity.
Qed.

Example C46_ex : exists b, ex_boot true (play (ex_boot true) [ex_args 3 (Some 7%Z)]) (ex_args 3 (Some 7%Z)) = Ok (Some b, false) /\
  ex_boot true (play (ex_boot true) [ex_args 3 (Some 7%Z)]) (ex_args 4 (Some 7%Z)) = Ok (Some b, false) /\ s_n b = 4%Z.
Proof.
  destruct (ex_boot_runs true) as (b & E & N & _). exists b. unfold play. cbn [fold_left]. rewrite E.
  assert (R : forall n, (n = 3 \/ n = 4)%Z -> ex_boot true (Some b) (ex_args n (Some 7%Z)) = Ok (Some b, false)).
  { intros n Hn. unfold ex_boot, boot, cached, ex_args. cbn [a_np get_parallel_number bind a_parallel andb a_seed a_n Nat.eqb].
    assert (S : s_seed b = 7%Z) by (destruct (run1_label ex_data ex_stats [s2l "K"] [s2l "K"] (fun y => y) (ex_fit true) 2 ex_draw ex_dev ex_mle ex_mv 7 4 true 2 b) as [_ S]; [|exact S];
      unfold ex_boot, boot, cached, ex_args in E; cbn [a_np get_parallel_number bind a_parallel andb a_seed a_n Nat.eqb] in E; change (negb (3 mod Z.of_nat 2 =? 0)%Z) with true in E; cbv iota in E;
      change (3 + (Z.of_nat 2 - 3 mod Z.of_nat 2))%Z with 4%Z in E; destruct (boot_run _ _ _ _ _ _ _ _ _ _ _ _ _ _ _) as [b'|]; [cbn [bind] in E; now injection E as <-|discriminate]).
    rewrite N, S. destruct Hn as [-> | ->]; reflexivity. }
  split; [apply R; now left|]. split; [apply R; now right|exact N].
Qed.
(** when no fit is valid, the p-value is not a number *)
Theorem C47_no_valid_refuted : exists b, play (ex_boot false) [ex_args 3 (Some 7%Z)] = Some b /\ p_total b = None /\ s_n b = 4%Z.
Proof.
  destruct (ex_boot_runs false) as (b & E & N & V). exists b. assert (P : play (ex_boot false) [ex_args 3 (Some 7%Z)] = Some b) by (unfold play; cbn [fold_left]; now rewrite E).
  split; [exact P|]. split; [|exact N].
  destruct (C47_boot_pvalues ex_data ex_stats [s2l "K"] [s2l "K"] (fun y => y) (ex_fit false) 2 ex_draw ex_dev ex_mle ex_mv 42 ltac:(lia) _ _ P) as (fs & _ & (Pt & _) & Cv).
  destruct Pt as (m & k & Cm & _ & Z0 & _). apply Z0. rewrite (count_fun _ _ _ _ Cm Cv). exact V.
Qed.
Print Assumptions C47_no_valid_refuted.
(** a predictive check with four simulations of which the first has an invalid fit: four sets of parameters are kept beside three data sets *)
Definition ex_fit2 (d : dict (list R)) (y : list R) : fitted :=
  {| ft_param := fun _ => hd 0 y; ft_model := fun _ => y; ft_total := hd 0 (concat (map snd d)); ft_group := fun _ => hd 0 (concat (map snd d)); ft_point := fun _ => concat (map snd d);
     ft_valid := Rltb 0 (hd 0 (concat (map snd d))) |}.
Definition ex_ppc2 := ppc ex_data ex_stats [s2l "K"] [s2l "K"] (fun y => y) ex_fit2 2 ex_draw ex_dev ex_select (fun _ _ _ => 4) (fun _ _ => ex_mv) 42.
Theorem C64_ppc_rows_refuted : exists b ps ms, play ex_ppc2 [ex_args 3 (Some 7%Z)] = Some b /\ s_nvalid b = 3%nat /\
  s_rep b = Some (ps, ms) /\ length ms = 4%nat /\ length (r_data (s_fit b)) = 3%nat.
Proof.
  assert (E : exists b, ex_ppc2 None (ex_args 3 (Some 7%Z)) = Ok (Some b, true) /\ s_n b = 4%Z /\ s_seed b = 7%Z /\ s_nvalid b = 3%nat).
  { eexists. split; [lazy -[Rltb pvalue pvalues Rplus Rmult Rdiv Rminus Rinv IZR INR]; reflexivity|]. split; [reflexivity|]. split; [reflexivity|].
    lazy -[Rltb IZR INR]. assert (V : forall n, Rltb 0 (INR (S n)) = true) by (intros n; apply Rltb_true; apply lt_0_INR; lia).
    rewrite !V. assert (V0 : Rltb 0 (INR 0) = false) by (destruct (Rltb_spec 0 (INR 0)) as [L|L]; [cbn in L; lra|reflexivity]). rewrite V0. reflexivity. }
  destruct E as (b & E & N & S & V). exists b. assert (P : play ex_ppc2 [ex_args 3 (Some 7%Z)] = Some b) by (unfold play; cbn [fold_left]; now rewrite E).
  destruct (C64_ppc_rows_partial ex_data ex_stats [s2l "K"] [s2l "K"] (fun y => y) ex_fit2 2 ex_draw ex_dev 42 ex_select (fun _ _ _ => 4) (fun _ _ => ex_mv) ltac:(lia)
    ltac:(intros; apply repeat_length) _ _ P) as (sims & Ls & _ & (Ed & _) & Lv & Er).
  do 2 eexists. split; [exact P|]. split; [exact V|]. split; [exact Er|]. split; [rewrite N; reflexivity|]. rewrite Ed, map_length. congruence.
Qed.
Print Assumptions C64_ppc_rows_refuted.
