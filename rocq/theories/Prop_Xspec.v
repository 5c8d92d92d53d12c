(** C91: models of XSPEC. *)
From Coq Require Import Ascii String Lia Lra Permutation.
From Verif Require Import RBase Base Data Namespace NamespaceProofs HelperData HelperDataProofs ModelAlg ModelAlgProofs OgipProofs SimulateProofs Prop_Intensity Xspec.
From Coq Require Import List.
Open Scope list_scope.
Open Scope R_scope.

(** ** C91: a routine of XSPEC gets the values of its parameters in the order in which they are declared, whatever the order of the mapping *)
Theorem C91_arguments : forall fn names spec g params (value : str -> R), NoDup names -> ~ In norm_key names ->
  (forall k, In k (norm_key :: names) -> get params k = Some (value k)) ->
  xs_add fn (names ++ [norm_key]) spec g params = Ok (map (fun x => value norm_key * x) (fn (map value names) g spec)) /\
  xs_mul fn names spec g params = Ok (fn (map value names) g spec).
Proof.
  intros fn names spec g params value Nd Nn H.
  assert (A : forall l, (forall k, In k l -> In k names) -> forall d, (forall k, In k l -> get d k = Some (value k)) -> xs_args l d = Ok (map value l)).
  { induction l as [|k l IH]; intros Hl d Hd; [reflexivity|]. unfold xs_args in *. cbn [mapE map]. rewrite (Hd k) by now left. cbn [opt_err bind].
    rewrite IH; [reflexivity|intros x Hx; apply Hl; now right|intros x Hx; apply Hd; now right]. }
  assert (F : filter (fun k => negb (is_norm k)) (names ++ [norm_key]) = names).
  { rewrite filter_app. cbn [filter]. unfold is_norm at 2. destruct (str_eqb_spec norm_key norm_key) as [_|E]; [|easy]. cbn [negb]. rewrite app_nil_r.
    clear -Nn. induction names as [|k l IH]; [reflexivity|]. cbn [filter]. unfold is_norm at 1. destruct (str_eqb_spec k norm_key) as [->|N]; [exfalso; apply Nn; now left|]. cbn [negb]. f_equal. apply IH.
    intros K. apply Nn. now right. }
  assert (W : forall k, k <> norm_key -> get (without params norm_key) k = get params k).
  { intros k Hk. unfold without. clear -Hk. induction params as [|[k' v] d IH]; [reflexivity|]. cbn [filter fst]. destruct (str_eqb_spec k' norm_key) as [->|N]; cbn [negb].
    - rewrite IH. cbn [get]. destruct (str_eqb_spec k norm_key); [congruence|reflexivity].
    - cbn [get]. now rewrite IH. }
  split.
  - unfold xs_add. rewrite (H norm_key) by now left. cbn [opt_err bind]. rewrite F. rewrite A; [reflexivity|auto|]. intros k Hk. rewrite W; [apply H; now right|]. intros ->. contradiction.
  - unfold xs_mul. rewrite A; [reflexivity|auto|]. intros k Hk. apply H. now right.
Qed.
Print Assumptions C91_arguments.

(** ** the grid is extended to the energies asked for *)
Lemma inc_app l a r : increasing (l ++ [a]) -> increasing (a :: r) -> increasing (l ++ a :: r).
Proof.
  induction l as [|x l IH]; intros H1 H2; [exact H2|]. destruct l as [|y l]; cbn [app increasing] in *; [split; [tauto|exact H2]|]. split; [tauto|]. apply IH; [tauto|exact H2].
Qed.
Lemma grid_first log a b n : hd 0 (mk_grid log a b (S n)) = a.
Proof. unfold mk_grid, geomspace, linspace. destruct log; cbn; [rewrite Rmult_0_l, exp_0|]; ring. Qed.
Lemma grid_last log a b n : (log = true -> 0 < a /\ 0 < b) -> last (mk_grid log a b (S (S n))) 0 = b.
Proof.
  intros H. assert (L : forall F m, last (map F (seq 0 (S m))) 0 = F m).
  { intros F m. replace (S m) with (m + 1)%nat by lia. rewrite seq_app, map_app. cbn [map seq]. rewrite last_last. f_equal. }
  assert (N : INR (S n) <> 0) by (apply not_0_INR; lia).
  unfold mk_grid, geomspace, linspace. destruct log; rewrite L; replace (S (S n) - 1)%nat with (S n) by lia.
  - destruct (H eq_refl). replace (INR (S n) * (ln (b / a) / INR (S n))) with (ln (b / a)) by (field; exact N). rewrite exp_ln; [field; lra|]. now apply Rdiv_lt_0_compat.
  - field. exact N.
Qed.
Lemma np_grid_ok log a b n : (0 <= n)%Z -> (log = true -> 0 < a /\ 0 < b) -> np_grid log a b n = Ok (mk_grid log a b (S (Z.to_nat n))).
Proof.
  intros Hn H. unfold np_grid. destruct (Z.ltb_spec n 0); [lia|]. destruct log; cbn [andb]; [|reflexivity]. destruct (H eq_refl).
  destruct (Reqb_spec a 0); [lra|]. destruct (Reqb_spec b 0); [lra|]. reflexivity.
Qed.
Definition logs_positive (c : xconv) (g : list R) : Prop := (x_loglow c = true -> 0 < x_low c) /\ (x_loghigh c = true -> 0 < last g 0).
Lemma removelast_len {A} (l : list A) : length (removelast l) = (length l - 1)%nat.
Proof. induction l as [|x [|y l] IH]; [reflexivity|reflexivity|]. change (removelast (x :: y :: l)) with (x :: removelast (y :: l)). cbn [length] in *. rewrite IH. lia. Qed.
Lemma inc_le g d : increasing g -> g <> [] -> hd d g <= last g d.
Proof.
  intros H N. induction g as [|a [|b g] IH]; [easy|cbn; lra|]. cbn [increasing] in H. specialize (IH (proj2 H) ltac:(easy)). change (last (a :: b :: g) d) with (last (b :: g) d). cbn [hd] in *. lra.
Qed.
Lemma low_ok c e0 g : (0 <= x_nlow c)%Z -> x_low c <= e0 -> (x_loglow c = true -> 0 < x_low c) ->
  exists lo, extend_low c (e0 :: g) = Ok (lo ++ e0 :: g) /\ length lo = Z.to_nat (x_nlow c) /\ (x_nlow c <> 0%Z -> hd 0 lo = x_low c) /\
    (x_low c < e0 -> increasing (lo ++ [e0])) /\ (x_low c = e0 -> Forall (eq e0) lo).
Proof.
  intros Hn Hl Hp. unfold extend_low. destruct (Rltb_spec e0 (x_low c)); [lra|]. rewrite np_grid_ok; [|exact Hn|intros E; specialize (Hp E); lra]. cbn [bind].
  set (m := Z.to_nat (x_nlow c)). set (G := mk_grid _ _ _ (S m)). assert (LG : length G = S m) by apply mk_grid_length.
  exists (removelast G). split; [reflexivity|]. split; [rewrite removelast_len; lia|].
  assert (D : m = O /\ removelast G = [] \/ exists k, m = S k /\ removelast G ++ [e0] = G).
  { destruct m as [|k]; [left; split; [reflexivity|]; unfold G, mk_grid, geomspace, linspace; destruct (x_loglow c); reflexivity|]. right. exists k. split; [reflexivity|].
    assert (EL : last G 0 = e0) by (apply grid_last; intros E; specialize (Hp E); lra). rewrite <- EL. symmetry. apply app_removelast_last. intros E. rewrite E in LG. discriminate. }
  split; [|split].
  - intros Hz. destruct D as [[E _]|(k & E & D)]; [lia|]. assert (F : hd 0 G = x_low c) by apply grid_first. rewrite <- D in F. destruct (removelast G) as [|x r] eqn:RG; [|exact F].
    apply (f_equal (@length R)) in RG. rewrite removelast_len, LG, E in RG. cbn in RG. lia.
  - intros Hlt. destruct D as [[_ ->]|(k & E & ->)]; [exact I|]. unfold G. apply mk_grid_increasing; [exact Hlt|exact Hp|lia].
  - intros Heq. assert (All : Forall (eq e0) G).
    { unfold G, mk_grid, geomspace, linspace. rewrite Heq. destruct (x_loglow c); apply Forall_map, Forall_forall; intros i _.
      - specialize (Hp eq_refl). unfold Rdiv at 2. rewrite Rinv_r by lra. rewrite ln_1. unfold Rdiv. rewrite Rmult_0_l, Rmult_0_r, exp_0. ring.
      - unfold Rminus, Rdiv. rewrite Rplus_opp_r, Rmult_0_l, Rmult_0_r. ring. }
    clear -All. induction G as [|x [|y G] IH]; [constructor|constructor|]. change (removelast (x :: y :: G)) with (x :: removelast (y :: G)). inversion All as [|? ? A1 A2]. constructor; [exact A1|]. now apply IH.
Qed.
Lemma high_ok c g : g <> [] -> (0 <= x_nhigh c)%Z -> last g 0 <= x_high c -> (x_loghigh c = true -> 0 < last g 0) ->
  exists hi, extend_high c g = Ok (g ++ hi) /\ length hi = Z.to_nat (x_nhigh c) /\ (x_nhigh c <> 0%Z -> last hi 0 = x_high c) /\
    (last g 0 < x_high c -> increasing (last g 0 :: hi)).
Proof.
  intros Hg Hn Hl Hp. unfold extend_high. destruct g as [|e0 g'] eqn:Eg; [easy|]. rewrite <- Eg in *. cbv zeta. set (e := last g 0) in *.
  destruct (Rltb_spec (x_high c) e); [lra|]. rewrite np_grid_ok; [|exact Hn|intros E; specialize (Hp E); lra]. cbn [bind].
  set (m := Z.to_nat (x_nhigh c)). set (G := mk_grid _ _ _ (S m)). assert (LG : length G = S m) by apply mk_grid_length.
  exists (tl G). split; [reflexivity|]. assert (F : hd 0 G = e) by apply grid_first. destruct G as [|x r] eqn:EG; [discriminate|]. cbn [tl hd] in *. subst x. split; [cbn in LG; lia|]. split.
  - intros Hz. destruct m as [|k] eqn:Em; [lia|]. assert (EL : last G 0 = x_high c) by (apply grid_last; intros E; specialize (Hp E); lra). rewrite EG in EL. destruct r; [cbn in LG; lia|exact EL].
  - intros Hlt. destruct m as [|k]; [destruct r; [exact I|cbn in LG; lia]|]. rewrite <- EG. apply mk_grid_increasing; [exact Hlt|exact Hp|lia].
Qed.
Theorem C91_grid : forall c g, g <> [] -> increasing g -> (0 <= x_nlow c)%Z -> (0 <= x_nhigh c)%Z -> x_low c < hd 0 g -> last g 0 < x_high c -> logs_positive c g ->
  exists lo hi, x_grid c g = Ok (lo ++ g ++ hi) /\ length lo = Z.to_nat (x_nlow c) /\ length hi = Z.to_nat (x_nhigh c) /\
    increasing (lo ++ g ++ hi) /\ (x_nlow c <> 0%Z -> hd 0 lo = x_low c) /\ (x_nhigh c <> 0%Z -> last hi 0 = x_high c).
Proof.
  intros c g Ng Inc Nl Nh Lo Hi [P1 P2]. destruct g as [|e0 g]; [easy|]. cbn [hd] in Lo.
  destruct (low_ok c e0 g Nl ltac:(lra) P1) as (lo & El & Ll & Hl & Il & _). unfold x_grid. rewrite El. cbn [bind].
  assert (EL : last (lo ++ e0 :: g) 0 = last (e0 :: g) 0). { clear. induction lo as [|x lo IH]; [reflexivity|]. cbn [app]. rewrite <- IH. now destruct lo. }
  destruct (high_ok c (lo ++ e0 :: g)) as (hi & Eh & Lh & Hh & Ih); rewrite ?EL; [now destruct lo|exact Nh|lra|exact P2|]. rewrite EL in Ih. exists lo, hi. rewrite <- app_assoc in Eh. split; [exact Eh|]. split; [exact Ll|]. split; [exact Lh|]. split; [|split; assumption].
  cbn [app]. apply inc_app; [now apply Il|]. assert (A : e0 :: g = removelast (e0 :: g) ++ [last (e0 :: g) 0]) by (apply app_removelast_last; easy).
  change (e0 :: g ++ hi) with ((e0 :: g) ++ hi). rewrite A in Inc |- *. rewrite <- app_assoc. cbn [app]. apply inc_app; [exact Inc|now apply Ih].
Qed.
Print Assumptions C91_grid.

(** ** the result has one value for each bin of the grid asked for, and is that of the bin *)
Lemma slice_mid {A} (l : list A) nlow nhigh n : length l = (nlow + n + nhigh)%nat -> (0 < nhigh)%nat ->
  py_slice l (Z.of_nat nlow) (- Z.of_nat nhigh) = firstn n (skipn nlow l).
Proof.
  intros L H. unfold py_slice, py_index. cbv zeta. destruct (Z.ltb_spec (Z.of_nat nlow) 0); [lia|]. destruct (Z.ltb_spec (- Z.of_nat nhigh) 0); [|lia]. rewrite L.
  replace (Z.min (Z.of_nat (nlow + n + nhigh)) (Z.of_nat nlow)) with (Z.of_nat nlow) by lia. replace (Z.max 0 (Z.of_nat (nlow + n + nhigh) + - Z.of_nat nhigh)) with (Z.of_nat (nlow + n)) by lia.
  rewrite Nat2Z.id. f_equal. lia.
Qed.
Theorem C91_bins : forall c g model convolve, g <> [] -> increasing g -> (0 <= x_nlow c)%Z -> (0 < x_nhigh c)%Z -> x_low c <= hd 0 g -> last g 0 <= x_high c -> logs_positive c g ->
  (forall e, length (convolve e (model e)) = (length e - 1)%nat) ->
  exists e y, x_grid c g = Ok e /\ x_eval c model convolve g = Ok y /\ length y = (length g - 1)%nat /\
  forall i, (S i < length g)%nat -> let k := (Z.to_nat (x_nlow c) + i)%nat in
    nth k e 0 = nth i g 0 /\ nth (S k) e 0 = nth (S i) g 0 /\ nth i y 0 = nth k (convolve e (model e)) 0.
Proof.
  intros c g model convolve Ng Inc Nl Nh Lo Hi [P1 P2] HL. destruct g as [|e0 g]; [easy|]. cbn [hd] in Lo.
  destruct (low_ok c e0 g Nl Lo P1) as (lo & El & Ll & _). unfold x_eval, x_grid. rewrite El. cbn [bind].
  assert (EL : last (lo ++ e0 :: g) 0 = last (e0 :: g) 0). { clear. induction lo as [|x lo IH]; [reflexivity|]. cbn [app]. rewrite <- IH. now destruct lo. }
  destruct (high_ok c (lo ++ e0 :: g)) as (hi & Eh & Lh & _); rewrite ?EL; [now destruct lo|lia|exact Hi|exact P2|]. rewrite Eh. cbn [bind]. set (e := (lo ++ e0 :: g) ++ hi) in *. eexists e, _. split; [reflexivity|]. split; [reflexivity|].
  assert (Le : length e = (length lo + length (e0 :: g) + length hi)%nat) by (unfold e; rewrite !app_length; lia). cbn [length] in Le.
  assert (SL : py_slice (convolve e (model e)) (x_nlow c) (- x_nhigh c) = firstn (length g) (skipn (Z.to_nat (x_nlow c)) (convolve e (model e)))).
  { pose proof (slice_mid (convolve e (model e)) (Z.to_nat (x_nlow c)) (Z.to_nat (x_nhigh c)) (length g)) as X. rewrite !Z2Nat.id in X by lia. apply X; rewrite ?HL; lia. }
  rewrite SL. split; [rewrite firstn_length, skipn_length, HL; cbn [length]; lia|].
  intros i Hi'. cbn [length] in Hi'. cbv zeta. rewrite <- Ll.
  assert (Nth : forall j, (j < length (e0 :: g))%nat -> nth (length lo + j) e 0 = nth j (e0 :: g) 0).
  { intros j Hj. unfold e. rewrite app_nth1 by (rewrite app_length; lia). rewrite app_nth2 by lia. f_equal. lia. }
  split; [apply Nth; cbn; lia|]. split; [rewrite <- Nat.add_succ_r; apply Nth; cbn; lia|]. rewrite nth_firstn by lia. now rewrite nth_skipn.
Qed.
Print Assumptions C91_bins.
(** so that the extension of the grid has no effect on what is computed bin by bin *)
Definition bin_by_bin (F : list R -> list R) : Prop :=
  exists h : R -> R -> R, forall e, length (F e) = (length e - 1)%nat /\ forall i, (S i < length e)%nat -> nth i (F e) 0 = h (nth i e 0) (nth (S i) e 0).
Theorem C91_local : forall c g model convolve, g <> [] -> increasing g -> (0 <= x_nlow c)%Z -> (0 < x_nhigh c)%Z -> x_low c <= hd 0 g -> last g 0 <= x_high c -> logs_positive c g ->
  bin_by_bin (fun e => convolve e (model e)) -> x_eval c model convolve g = Ok (convolve g (model g)).
Proof.
  intros c g model convolve Ng Inc Nl Nh Lo Hi P (h & H). destruct (C91_bins c g model convolve Ng Inc Nl Nh Lo Hi P (fun e => proj1 (H e))) as (e & y & Ee & -> & Ly & B). f_equal.
  assert (Le : length e = (Z.to_nat (x_nlow c) + length g + Z.to_nat (x_nhigh c))%nat).
  { unfold x_grid in Ee. apply bind_ok in Ee as (l & El & Eh). destruct g as [|e0 g]; [easy|]. destruct P as [P1 P2]. cbn [hd] in Lo. destruct (low_ok c e0 g Nl Lo P1) as (lo & El' & Ll & _). rewrite El' in El. injection El as <-.
    assert (EL : last (lo ++ e0 :: g) 0 = last (e0 :: g) 0). { clear. induction lo as [|x lo IH]; [reflexivity|]. cbn [app]. rewrite <- IH. now destruct lo. }
    destruct (high_ok c (lo ++ e0 :: g)) as (hi & Eh' & Lh & _); rewrite ?EL; [now destruct lo|lia|exact Hi|exact P2|]. rewrite Eh' in Eh. injection Eh as <-. rewrite !app_length. lia. }
  apply (nth_ext _ _ 0 0); [rewrite Ly; symmetry; apply (H g)|]. intros i Hi'. rewrite Ly in Hi'. destruct (B i ltac:(lia)) as (B1 & B2 & ->). cbv zeta in *. rewrite (proj2 (H e)) by lia. rewrite (proj2 (H g)) by lia. now rewrite B1, B2.
Qed.
Print Assumptions C91_local.
(** ** energies outside the extension are refused, all others accepted *)
Theorem C91_refuses : forall c g model convolve, g <> [] -> (0 <= x_nlow c)%Z -> (0 <= x_nhigh c)%Z -> logs_positive c g ->
  (x_eval c model convolve g = Err RuntimeError <-> hd 0 g < x_low c \/ x_high c < last g 0) /\
  (~ (hd 0 g < x_low c \/ x_high c < last g 0) -> exists y, x_eval c model convolve g = Ok y).
Proof.
  intros c g model convolve Ng Nl Nh [P1 P2]. destruct g as [|e0 g]; [easy|]. cbn [hd].
  assert (EL : forall lo, last (lo ++ e0 :: g) 0 = last (e0 :: g) 0). { clear. induction lo as [|x lo IH]; [reflexivity|]. cbn [app]. rewrite <- IH. now destruct lo. }
  assert (A : ~ (e0 < x_low c \/ x_high c < last (e0 :: g) 0) -> exists y, x_eval c model convolve (e0 :: g) = Ok y).
  { intros N. destruct (low_ok c e0 g Nl ltac:(lra) P1) as (lo & El & _). unfold x_eval, x_grid. rewrite El. cbn [bind].
    destruct (high_ok c (lo ++ e0 :: g)) as (hi & Eh & _); rewrite ?EL; [now destruct lo|exact Nh|lra|exact P2|]. rewrite Eh. cbn [bind]. eexists. reflexivity. }
  split; [|exact A]. split.
  - intros E. destruct (Rlt_dec e0 (x_low c)) as [L|L]; [now left|]. destruct (Rlt_dec (x_high c) (last (e0 :: g) 0)) as [L'|L']; [now right|]. destruct A as (y & Hy); [tauto|congruence].
  - intros D. unfold x_eval, x_grid. destruct (Rlt_dec e0 (x_low c)) as [L|L].
    + unfold extend_low. destruct (Rltb_spec e0 (x_low c)); [reflexivity|lra].
    + destruct D as [D|D]; [lra|]. destruct (low_ok c e0 g Nl ltac:(lra) P1) as (lo & -> & _). cbn [bind]. unfold extend_high. pose proof (EL lo) as E. destruct (lo ++ e0 :: g) eqn:El; [now destruct lo|]. rewrite <- El in *. rewrite E. cbv zeta. destruct (Rltb_spec (x_high c) (last (e0 :: g) 0)); [reflexivity|lra].
Qed.
Print Assumptions C91_refuses.
(** ** without an extension to high energies nothing is left of the result *)
Theorem C91_no_high_extension_refuted : forall c g model convolve y, x_nhigh c = 0%Z -> x_eval c model convolve g = Ok y -> y = [].
Proof.
  intros c g model convolve y H E. unfold x_eval in E. apply bind_ok in E as (e & _ & E). injection E as <-. rewrite H. unfold py_slice, py_index. cbn [Z.opp Z.ltb Z.compare]. cbv zeta.
  set (l := convolve e (model e)). destruct (Z.ltb_spec (x_nlow c) 0); match goal with |- firstn (Z.to_nat ?k) _ = _ => replace (Z.to_nat k) with O by lia; reflexivity end.
Qed.
Print Assumptions C91_no_high_extension_refuted.
(** ** an extension that starts at the first energy is accepted and makes bins of no width, although the message asks for a lower energy *)
Theorem C91_edge_refuted : forall c g, g <> [] -> (0 < x_nlow c)%Z -> (0 <= x_nhigh c)%Z -> x_low c = hd 0 g -> last g 0 <= x_high c -> logs_positive c g ->
  exists e, x_grid c g = Ok e /\ nth 0 e 0 = nth 1 e 0.
Proof.
  intros c g Ng Nl Nh Lo Hi [P1 P2]. destruct g as [|e0 g]; [easy|]. cbn [hd] in Lo. destruct (low_ok c e0 g ltac:(lia) ltac:(lra) P1) as (lo & El & Ll & _ & _ & Q). specialize (Q Lo). unfold x_grid. rewrite El. cbn [bind].
  assert (EL : last (lo ++ e0 :: g) 0 = last (e0 :: g) 0). { clear. induction lo as [|x lo IH]; [reflexivity|]. cbn [app]. rewrite <- IH. now destruct lo. }
  destruct (high_ok c (lo ++ e0 :: g)) as (hi & Eh & _); rewrite ?EL; [now destruct lo|exact Nh|exact Hi|exact P2|]. eexists. split; [exact Eh|]. destruct lo as [|x [|y lo]]; [cbn in Ll; lia| |]; cbn [app nth]; inversion Q as [|? ? Q1 Q2]; subst; [reflexivity|]. inversion Q2; congruence.
Qed.
Print Assumptions C91_edge_refuted.
(** the default settings, on a grid from 1 to 10 *)
Example C91_case : let c := mk_xconv None None None None None None in
  increasing [1; 2; 10] /\ (0 <= x_nlow c)%Z /\ (0 < x_nhigh c)%Z /\ x_low c < hd 0 [1; 2; 10] /\ last [1; 2; 10] 0 < x_high c /\ logs_positive c [1; 2; 10].
Proof. cbn. unfold logs_positive. cbn. repeat split; try lia; lra. Qed.
