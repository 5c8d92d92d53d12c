(** C45: fits of simulated data, in sequence and in parallel. *)
From Coq Require Import Ascii String Permutation.
From Verif Require Import RBase Data Namespace NamespaceProofs FitInput HelperData Batch BatchProofs HelperDataProofs CompileProofs.
From Coq Require Import List.
Open Scope list_scope.

(** ** vocabulary of the statements *)
(** entry [i] of the array stored under the name [k] *)
Definition entry {A} (t : dict (list A)) (k : str) (i : nat) : option A := match get t k with Some c => nth_error c i | None => None end.
(** the counts of one data set, restricted to the names that enter its likelihood *)
Definition restricted (names : list str) (d d' : dict (list R)) : Prop :=
  map fst d' = names /\ forall j v, In j names -> get d j = Some v -> get d' j = Some v.
(** the initial value of the [i]-th fit: the given scalars, or the [i]-th components of the given vectors *)
Definition own_start (ip : dict nd) (free : list str) (i : nat) (y : list R) : Prop :=
  Forall2 (fun k x => get ip k = Some (Sc x) \/ exists l, get ip k = Some (Ve l) /\ nth_error l i = Some x) free y.

Lemma nth_repeat_lt {A} (x d : A) n i : (i < n)%nat -> nth i (repeat x n) d = x.
Proof. revert i; induction n as [|n IH]; intros [|i] H; cbn; try lia; [reflexivity|]. apply IH; lia. Qed.
Lemma pick_restricted names d : restricted names d (pick names d).
Proof.
  unfold restricted, pick. split; [rewrite map_map; cbn; apply map_id|].
  intros j v Hj Hv. induction names as [|k names IH]; [destruct Hj|]. cbn [map get]. destruct (str_eqb_spec j k) as [->|N]; [now rewrite Hv|].
  destruct Hj as [->|Hj]; [easy|]. now apply IH.
Qed.
Lemma all_sc_spec l : forall xs, all_sc l = Some xs <-> l = map Sc xs.
Proof.
  induction l as [|[x|v|m] l IH]; intros xs; cbn [all_sc].
  - split; [intros H; now injection H as <-|destruct xs; [reflexivity|discriminate]].
  - destruct (all_sc l) as [ys|]; cbn [option_map]; split; intros H.
    + injection H as <-. cbn. f_equal. now apply IH.
    + destruct xs as [|z xs]; [discriminate|]. cbn in H. injection H as -> H. apply IH in H. congruence.
    + discriminate.
    + destruct xs as [|z xs]; [discriminate|]. cbn in H. injection H as -> H. apply IH in H. discriminate.
  - split; [discriminate|]. destruct xs; discriminate.
  - split; [discriminate|]. destruct xs; discriminate.
Qed.
Lemma all_ve_spec l : forall xs, all_ve l = Some xs <-> l = map Ve xs.
Proof.
  induction l as [|[x|v|m] l IH]; intros xs; cbn [all_ve].
  - split; [intros H; now injection H as <-|destruct xs; [reflexivity|discriminate]].
  - split; [discriminate|]. destruct xs; discriminate.
  - destruct (all_ve l) as [ys|]; cbn [option_map]; split; intros H.
    + injection H as <-. cbn. f_equal. now apply IH.
    + destruct xs as [|z xs]; [discriminate|]. cbn in H. injection H as -> H. apply IH in H. congruence.
    + discriminate.
    + destruct xs as [|z xs]; [discriminate|]. cbn in H. injection H as -> H. apply IH in H. discriminate.
  - split; [discriminate|]. destruct xs; discriminate.
Qed.
Lemma nth_seq_map {A} (f : nat -> A) n i d : (i < n)%nat -> nth i (map f (seq 0 n)) d = f i.
Proof. intros H. rewrite (nth_indep _ d (f 0%nat)) by (rewrite map_length, seq_length; exact H). rewrite map_nth, seq_nth by exact H. reflexivity. Qed.
Lemma make_init_inv free n ip init : make_init free n ip = Ok init ->
  length init = n /\ forall i, (i < n)%nat -> own_start ip free i (nth i init []).
Proof.
  unfold make_init. destruct (same_names (map fst ip) free); [|discriminate]. cbn [negb].
  destruct (same_leading (map snd ip)); [|discriminate]. cbn [negb].
  destruct (mapE _ free) as [vs|] eqn:Ev; [|discriminate]. cbn [bind]. apply mapE_inv in Ev.
  assert (G : Forall2 (fun k v => get ip k = Some v) free vs).
  { eapply F2_impl; [|exact Ev]. cbn. intros k v H. destruct (get ip k) as [w|]; cbn in H; [now injection H as ->|discriminate]. }
  clear Ev. unfold stack. destruct (all_sc vs) as [xs|] eqn:Es.
  - apply all_sc_spec in Es. subst vs. cbn [bind]. intros H. injection H as <-. split; [apply repeat_length|].
    intros i Hi. rewrite nth_repeat_lt by exact Hi. clear Hi. unfold own_start. remember (map Sc xs) as vs eqn:E. revert xs E. induction G as [|k v free vs Hk G IH]; intros [|x xs] E; try discriminate; constructor.
    + injection E as -> _. now left.
    + injection E as _ E. now apply IH.
  - destruct (all_ve vs) as [cols|] eqn:Ec.
    + apply all_ve_spec in Ec. subst vs. destruct (forallb _ cols) eqn:Ef; [|discriminate]. cbn [bind].
      set (m := length (hd [] cols)) in *. destruct (Nat.eqb_spec (length (map (fun i => map (fun c => nth i c 0) cols) (seq 0 m))) n) as [L|L]; [|discriminate].
      intros H. injection H as <-. split; [exact L|]. intros i Hi. rewrite map_length, seq_length in L. rewrite nth_seq_map by lia.
      unfold own_start. rewrite forallb_forall in Ef. assert (Hc : Forall (fun c => length c = n) cols).
      { apply Forall_forall. intros c Hc. apply Ef in Hc. apply Nat.eqb_eq in Hc. congruence. }
      clearbody m. clear Es Ef L. remember (map Ve cols) as vs eqn:E. revert cols E Hc. induction G as [|k v free vs Hk G IH]; intros [|c cols] E Hc; try discriminate; constructor.
      * injection E as -> _. right. exists c. split; [exact Hk|]. inversion Hc; subst. apply nth_error_nth'. lia.
      * injection E as _ E. inversion Hc; subst. apply IH; auto.
    + destruct (forallb _ vs); cbn [bind]; discriminate.
Qed.

(** which counts of a simulated data set are refitted, and which model values are reported: on counts for every data, off counts for
    pgstat and wstat *)
Theorem C45_refitted_names : forall stats, NoDup (map fst stats) -> forall n,
  (In n (group_names stats) <-> exists k s, In (k, s) stats /\ (n = k ++ s2l "_Non" \/ (n = k ++ s2l "_Noff" /\ (s = Pgstat \/ s = Wstat)))) /\
  (In n (model_names stats) <-> exists k s, In (k, s) stats /\ (n = k \/ n = k ++ s2l "_Non" ++ s2l "_model" \/ (n = k ++ s2l "_Noff" ++ s2l "_model" /\ (s = Pgstat \/ s = Wstat)))).
Proof.
  intros stats N n. assert (G : forall k s, In (k, s) stats -> data_group stats k = if with_back s then [on_name k; off_name k] else [on_name k]).
  { intros k s H. unfold data_group. now rewrite (get_nodup _ _ _ N H). }
  unfold group_names, model_names. split; rewrite in_flat_map; split.
  - intros ([k s] & Hin & H). cbn [fst] in H. rewrite (G _ _ Hin) in H. exists k, s. split; [exact Hin|]. destruct s; cbn [with_back In] in H; unfold on_name, off_name in H; intuition.
  - intros (k & s & Hin & H). exists (k, s). split; [exact Hin|]. cbn [fst]. rewrite (G _ _ Hin). destruct H as [-> | [-> [-> | ->]]]; [destruct s; cbn; auto|cbn; auto|cbn; auto].
  - intros ([k s] & Hin & H). cbn [fst] in H. rewrite (G _ _ Hin) in H. exists k, s. split; [exact Hin|]. unfold model_name, on_name, off_name in H. rewrite !app_assoc.
    destruct s; cbn [with_back map In] in H; intuition.
  - intros (k & s & Hin & H). exists (k, s). split; [exact Hin|]. cbn [fst]. rewrite (G _ _ Hin). unfold model_name, on_name, off_name. rewrite !app_assoc in H.
    destruct H as [-> | [-> | [-> [-> | ->]]]]; [now left|destruct s; cbn [with_back map In]; auto|cbn [with_back map In]; auto|cbn [with_back map In]; auto].
Qed.
Print Assumptions C45_refitted_names.
Example C45_refitted_names_ex : group_names [(s2l "A", Wstat); (s2l "B", Cstat)] = [s2l "A_Non"; s2l "A_Noff"; s2l "B_Non"].
Proof. reflexivity. Qed.

(** ** the statements *)
Section Statements.
Variables (data : dict fdata) (stats : dict stat) (free params : list str) (U : list R -> list R).
Variables (fit : dict (list R) -> list R -> fitted) (devices : nat).
Notation names := (group_names stats).

(** every simulated data set is fitted exactly once, from its own initial values, in whatever mode, and entry [i] of
    every reported array comes from the fit of data set [i] *)
Theorem C45_each_once : forall ip sim parallel np r calls, batch_fit data stats free params U fit devices ip sim parallel np = Ok (r, calls) ->
  exists rows, sim = Many rows /\ r_data r = rows /\ length calls = length rows /\
  forall i d, nth_error rows i = Some d ->
    exists d' y, restricted names d d' /\ own_start ip free i y /\
      nth_error calls i = Some (d', U y) /\
      (let f := fit d' (U y) in
       (forall k, In k params -> entry (r_params r) k i = Some (ft_param f k)) /\
       (forall k, In k (model_names stats) -> entry (r_models r) k i = Some (ft_model f k)) /\
       (forall k, In k (map fst stats) -> entry (r_group r) k i = Some (ft_group f k) /\ entry (r_point r) k i = Some (ft_point f k)) /\
       nth_error (r_total r) i = Some (ft_total f) /\ nth_error (r_valid r) i = Some (ft_valid f)).
Proof.
  intros ip sim parallel np r calls H. unfold batch_fit in H. destruct (get_parallel_number devices np) as [p|] eqn:Ep; [|discriminate]. cbn [bind] in H.
  destruct sim as [a|rows|]; [discriminate| |discriminate]. destruct (filter _ (ndata data)) as [|x l]; [discriminate|].
  destruct (make_init free (length rows) ip) as [init|] eqn:Ei; [|discriminate]. cbn [bind] in H. apply make_init_inv in Ei as [Li Hi].
  destruct (widths_ok data); [|discriminate]. cbn [negb] in H.
  pose proof (container_shaped stats params rows) as Sh. set (r0 := container stats params rows) in *.
  assert (E : r = all_fits names fit (length rows) r0 (map U init) /\ calls = all_calls names (length rows) (r_data r0) (map U init)).
  { destruct parallel.
    - destruct (Nat.eq_dec p 0) as [->|Np]; [discriminate H|].
      destruct (Nat.eq_dec (length rows mod p) 0) as [M|M].
      + assert (D : length rows = (p * (length rows / p))%nat) by (apply Nat.div_exact; [exact Np|exact M]).
        rewrite (parallel_filled names fit p (length rows / p)) in H; [|lia|rewrite <- D; exact Sh|rewrite map_length; congruence].
        rewrite <- D in H. injection H as <- <-. now split.
      + rewrite parallel_refused in H; [discriminate|lia|]. rewrite (sh_valid _ _ Sh). exact M.
    - rewrite (sequence_filled names fit (length rows) _ _ Sh) in H. injection H as <- <-. now split. }
  destruct E as [-> ->]. exists rows. split; [reflexivity|]. split; [reflexivity|]. split; [unfold all_calls; now rewrite map_length, seq_length|].
  intros i d Hd. assert (Hlt : (i < length rows)%nat) by (apply nth_error_Some; congruence).
  assert (Dd : nth i (r_data r0) [] = d) by (now apply nth_error_nth).
  exists (pick names d), (nth i init []). split; [apply pick_restricted|]. split; [now apply Hi|].
  assert (Ui : nth i (map U init) [] = U (nth i init [])).
  { rewrite (nth_indep _ [] (U [])) by (rewrite map_length; lia). apply map_nth. }
  assert (Q : forall A (g : nat -> A), nth_error (map g (seq 0 (length rows))) i = Some (g i)).
  { intros A g. rewrite (nth_error_nth' _ (g 0%nat)) by (rewrite map_length, seq_length; exact Hlt). f_equal. rewrite map_nth, seq_nth by exact Hlt. reflexivity. }
  split; [unfold all_calls; rewrite Q, Dd, Ui; reflexivity|].
  assert (F : fit_of names fit (r_data r0) (map U init) i = fit (pick names d) (U (nth i init []))) by (unfold fit_of; now rewrite Dd, Ui).
  assert (T : forall A (g : fitted -> str -> A) (t : dict (list A)) k c, get t k = Some c ->
     entry (tree_of (length rows) (fun i => g (fit_of names fit (r_data r0) (map U init) i)) t) k i = Some (g (fit (pick names d) (U (nth i init []))) k)).
  { intros A g t k c Hc. unfold entry. rewrite get_tree_of, Hc, Q, F. reflexivity. }
  assert (P : forall A (v : A) lst k, In k lst -> exists c, get (puts [] (map (fun k => (k, v)) lst)) k = Some c).
  { intros A v lst k Hk. exists v. apply get_puts_const; [intros e He; apply in_map_iff in He as (? & <- & _); reflexivity|]. rewrite map_map. cbn. now rewrite map_id. }
  cbn zeta. cbn [all_fits r_params r_models r_total r_group r_point r_valid]. split; [|split; [|split; [|split]]].
  - intros k Hk. destruct (P _ (repeat 0 (length rows)) params k Hk) as [c Hc]. exact (T _ ft_param _ _ _ Hc).
  - intros k Hk. destruct (P _ (repeat ([] : list R) (length rows)) (model_names stats) k Hk) as [c Hc]. exact (T _ ft_model _ _ _ Hc).
  - intros k Hk. split.
    + destruct (P _ (repeat 0 (length rows)) _ k Hk) as [c Hc]. exact (T _ ft_group _ _ _ Hc).
    + destruct (P _ (repeat ([] : list R) (length rows)) _ k Hk) as [c Hc]. exact (T _ ft_point _ _ _ Hc).
  - rewrite Q, F. reflexivity.
  - rewrite Q, F. reflexivity.
Qed.

(** fitting on [p] devices is the same as fitting one by one, whenever the data sets can be shared out evenly *)
Theorem C45_parallel_is_sequential : forall ip rows np p, get_parallel_number devices np = Ok p -> (0 < p)%nat -> Nat.divide p (length rows) ->
  batch_fit data stats free params U fit devices ip (Many rows) true np = batch_fit data stats free params U fit devices ip (Many rows) false np.
Proof.
  intros ip rows np p Ep Hp (q & Dq). unfold batch_fit. rewrite Ep. cbn [bind]. destruct (filter _ (ndata data)); [reflexivity|].
  destruct (make_init free (length rows) ip) as [init|] eqn:Ei; [|reflexivity]. cbn [bind]. destruct (widths_ok data); [|reflexivity]. cbn [negb].
  apply make_init_inv in Ei as [Li _]. pose proof (container_shaped stats params rows) as Sh.
  rewrite (sequence_filled names fit _ _ _ Sh). assert (D : length rows = (p * q)%nat) by lia. rewrite D in *.
  rewrite (parallel_filled names fit p q); [reflexivity|exact Hp|exact Sh|now rewrite map_length].
Qed.
(** otherwise the parallel fit is refused *)
Theorem C45_uneven_refused : forall ip rows np p, get_parallel_number devices np = Ok p -> (0 < p)%nat -> ~ Nat.divide p (length rows) ->
  exists e, batch_fit data stats free params U fit devices ip (Many rows) true np = Err e.
Proof.
  intros ip rows np p Ep Hp Nd. unfold batch_fit. rewrite Ep. cbn [bind]. destruct (filter _ (ndata data)); [eauto|].
  destruct (make_init free (length rows) ip) as [init|] eqn:Ei; [|cbn; eauto]. cbn [bind]. destruct (widths_ok data); [|cbn; eauto]. cbn [negb].
  rewrite parallel_refused; [eauto|exact Hp|]. rewrite (sh_valid _ _ (container_shaped stats params rows)). intros M. apply Nd, Nat.mod_divide; [lia|exact M].
Qed.
(** the batch is accepted: distinct parameter names with scalars or vectors of the right length *)
Theorem C45_accepts : forall ip rows np p, get_parallel_number devices np = Ok p -> (0 < p)%nat -> Nat.divide p (length rows) ->
  data <> [] -> (forall e, In e data -> fst e <> total_key) -> NoDup (map fst data) ->
  NoDup (map fst ip) -> (forall k, In k (map fst ip) <-> In k free) ->
  ((forall k v, In (k, v) ip -> exists x, v = Sc x) \/ (forall k v, In (k, v) ip -> exists l, v = Ve l /\ length l = length rows)) ->
  forall parallel, exists r calls, batch_fit data stats free params U fit devices ip (Many rows) parallel np = Ok (r, calls).
Proof.
  intros ip rows np p Ep Hp Dp Nn Nt Nd Ni Same Hv parallel.
  assert (Hg : forall e, In e data -> get (ndata data) (fst e) = Some (length (f_emin (snd e)))).
  { intros e He. unfold ndata. rewrite get_put. destruct (str_eqb_spec (fst e) total_key) as [E|_]; [exfalso; exact (Nt e He E)|].
    apply get_puts; [rewrite map_map; exact Nd|]. apply in_map_iff. exists e. now split. }
  assert (X0 : exists e0, In e0 data) by (destruct data as [|e0 ?]; [easy|exists e0; now left]). destruct X0 as [e0 He0]. pose proof (Nt e0 He0) as Ne0.
  assert (Hf : filter (fun e => negb (str_eqb (fst e) total_key)) (ndata data) <> []).
  { intros E. pose proof (Hg e0 He0) as G. apply get_in in G. assert (I : In (fst e0, length (f_emin (snd e0))) (filter (fun e => negb (str_eqb (fst e) total_key)) (ndata data))).
    { apply filter_In. split; [exact G|]. cbn [fst]. destruct (str_eqb_spec (fst e0) total_key) as [X|_]; [easy|reflexivity]. }
    rewrite E in I. destruct I. }
  assert (Hw : widths_ok data = true).
  { unfold widths_ok. apply forallb_forall. intros e He. rewrite (Hg e He). apply Nat.eqb_refl. }
  assert (Hm : exists init, make_init free (length rows) ip = Ok init).
  { unfold make_init. assert (S : same_names (map fst ip) free = true).
    { unfold same_names. apply andb_true_iff. split; apply forallb_forall; intros k Hk; apply str_in_spec; now apply Same. }
    rewrite S. cbn [negb].
    assert (Sl : same_leading (map snd ip) = true).
    { unfold same_leading. destruct ip as [|[k0 v0] ip']; [reflexivity|]. cbn [map snd]. apply forallb_forall. intros v Hin.
      apply in_map_iff in Hin as ([k1 v1] & Hx & Hin). cbn [snd] in Hx. subst v1. destruct Hv as [Hv|Hv].
      - destruct (Hv k0 v0 (or_introl eq_refl)) as [x ->]. destruct (Hv k1 v (or_intror Hin)) as [y ->]. reflexivity.
      - destruct (Hv k0 v0 (or_introl eq_refl)) as (x & -> & _). destruct (Hv k1 v (or_intror Hin)) as (y & -> & _). reflexivity. }
    rewrite Sl. cbn [negb].
    assert (G : exists vs, Forall2 (fun k v => get ip k = Some v) free vs).
    { assert (Q : forall l, incl l free -> exists vs, Forall2 (fun k v => get ip k = Some v) l vs).
      { induction l as [|k l IH]; intros I; [exists []; constructor|]. destruct IH as [vs Hvs]; [intros x Hx; apply I; now right|].
        assert (Hk : In k (map fst ip)) by (apply Same, I; now left). apply in_map_iff in Hk as ([k' v] & <- & Hin). exists (v :: vs). constructor; [|exact Hvs].
        now apply get_nodup. }
      apply Q, incl_refl. }
    destruct G as [vs G]. rewrite (mapE_ok _ _ vs); [|eapply F2_impl; [|exact G]; cbn; intros k v ->; reflexivity]. cbn [bind]. unfold stack.
    assert (In_vs : forall v, In v vs -> exists k, In (k, v) ip).
    { intros v Hin. destruct (F2_in_r _ _ _ _ G Hin) as (k & _ & Hk). exists k. now apply get_in. }
    destruct Hv as [Hv|Hv].
    - assert (E : exists xs, vs = map Sc xs).
      { clear - In_vs Hv. induction vs as [|v vs IH]; [exists []; reflexivity|]. destruct IH as [xs ->]; [intros w Hw; apply In_vs; now right|].
        destruct (In_vs v (or_introl eq_refl)) as [k Hk]. destruct (Hv _ _ Hk) as [x ->]. exists (x :: xs). reflexivity. }
      destruct E as [xs E]. rewrite (proj2 (all_sc_spec vs xs) E). cbn [bind]. eauto.
    - destruct (all_sc vs) as [xs|] eqn:Es; [cbn [bind]; eauto|].
      assert (E : exists cols, vs = map Ve cols /\ Forall (fun c => length c = length rows) cols).
      { clear - In_vs Hv. induction vs as [|v vs IH]; [exists []; split; [reflexivity|constructor]|]. destruct IH as (xs & -> & F); [intros w Hw; apply In_vs; now right|].
        destruct (In_vs v (or_introl eq_refl)) as [k Hk]. destruct (Hv _ _ Hk) as (x & -> & L). exists (x :: xs). split; [reflexivity|now constructor]. }
      destruct E as (cols & E & F). rewrite (proj2 (all_ve_spec vs cols) E).
      assert (L : length (hd [] cols) = length rows).
      { destruct cols as [|c cols]; [subst vs; discriminate Es|]. now inversion F. }
      rewrite L. assert (Ff : forallb (fun c => length c =? length rows)%nat cols = true).
      { apply forallb_forall. intros c Hc. rewrite Forall_forall in F. apply Nat.eqb_eq. now apply F. }
      rewrite Ff. cbn [bind]. rewrite map_length, seq_length, Nat.eqb_refl. eauto. }
  destruct Hm as [init Hm].
  assert (E : batch_fit data stats free params U fit devices ip (Many rows) parallel np = batch_fit data stats free params U fit devices ip (Many rows) false np).
  { destruct parallel; [now apply (C45_parallel_is_sequential ip rows np p)|reflexivity]. }
  rewrite E. unfold batch_fit. rewrite Ep. cbn [bind]. destruct (filter _ (ndata data)) as [|x l]; [easy|]. rewrite Hm. cbn [bind]. rewrite Hw. cbn [negb].
  destruct (fit_in_sequence _ _ _ _) as [r calls]. eauto.
Qed.
End Statements.
Print Assumptions C45_each_once.
Print Assumptions C45_parallel_is_sequential.
Print Assumptions C45_uneven_refused.
Print Assumptions C45_accepts.

(** the hypotheses are met: two simulations of one data set, fitted on two devices from one vector of starting values *)
Example C45_ex : exists (d : fdata) stats (fit : dict (list R) -> list R -> fitted) ip rows r calls,
  length rows = 2%nat /\ ip = [(s2l "K", Ve [1; 3])] /\
  batch_fit [(s2l "A", d)] stats [s2l "K"] [s2l "K"] (fun y => y) fit 4 ip (Many rows) true (Some 2%Z) = Ok (r, calls) /\
  map snd calls = [[1]; [3]].
Proof.
  set (d := {| f_name := s2l "A"; f_counts := [4]; f_errors := [2]; f_poisson := true; f_exposure := 1; f_area := [1]; f_back := None;
               f_net := [4]; f_net_errors := [2]; f_ce := [4]; f_emin := [1]; f_emax := [2]; f_matrix := [[1]] |}).
  set (fit := fun (d : dict (list R)) (y : list R) => {| ft_param := fun _ => 0; ft_model := fun _ => [0]; ft_total := 0; ft_group := fun _ => 0; ft_point := fun _ => [0]; ft_valid := true |}).
  set (rows := [[(on_name (s2l "A"), [4])]; [(on_name (s2l "A"), [5])]]).
  exists d, [(s2l "A", Cstat)], fit, [(s2l "K", Ve [1; 3])], rows.
  destruct (C45_accepts [(s2l "A", d)] [(s2l "A", Cstat)] [s2l "K"] [s2l "K"] (fun y => y) fit 4 [(s2l "K", Ve [1; 3])] rows (Some 2%Z) 2) with (parallel := true) as (r & calls & E).
  - reflexivity.
  - lia.
  - exists 1%nat. reflexivity.
  - discriminate.
  - intros e [<-|[]]. discriminate.
  - repeat constructor; intros [].
  - repeat constructor; intros [].
  - intros k. reflexivity.
  - right. intros k v [H|[]]. injection H as <- <-. exists [1; 3]. now split.
  - exists r, calls. split; [reflexivity|]. split; [reflexivity|]. split; [exact E|].
    destruct (C45_each_once _ _ _ _ _ _ _ _ _ _ _ _ _ E) as (rows' & Er & _ & Lc & Hc). injection Er as <-.
    assert (S1 : forall i d0 x, nth_error rows i = Some d0 -> nth_error [1; 3] i = Some x -> exists c, nth_error calls i = Some (c, [x])).
    { intros i d0 x Hr Hx. destruct (Hc i d0 Hr) as (d' & y & _ & Hy & Hn & _). exists d'. rewrite Hn. f_equal. f_equal.
      inversion Hy as [|k z ks zs Hk Hk' A B]; subst. inversion Hk'; subst. f_equal. destruct Hk as [Hk|(l & Hk & Hz)]; [discriminate Hk|]. injection Hk as <-. congruence. }
    destruct (S1 0%nat _ 1 eq_refl eq_refl) as [c0 H0]. destruct (S1 1%nat _ 3 eq_refl eq_refl) as [c1 H1].
    destruct calls as [|a [|b [|? ?]]]; try discriminate Lc. cbn in H0, H1. injection H0 as ->. injection H1 as ->. reflexivity.
Qed.
