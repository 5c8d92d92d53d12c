(** C43: what a fit accepts, and the statistics it chooses. *)
From Coq Require Import Ascii String.
From Verif Require Import RBase Grouping Scale Significance Data DataProofs DataState DataFacts DataBad DataSim DataExamples Prop_Data Namespace NamespaceProofs FitInput FitInputProofs.
From Coq Require Import List.
Open Scope list_scope.

(** accepted exactly when: data sets with distinct names; additive models, one or one each; known statistics, one or
    one each (or chosen automatically); every statistic suitable for its data set.  What is returned is what was given. *)
Theorem C43_accepts : forall M (additive : M -> bool) da ma sa ds ms ss,
  parse_input additive da ma sa = Ok (ds, ms, ss) <->
  exists l ml, given da l /\ ds = map (fun p => get_fixed_data (fst p) (snd p)) l /\ NoDup (map fst l) /\
    given ma ml /\ Forall (fun m => additive m = true) ml /\ spread ml (length l) ms /\
    match sa with
    | None => ss = map get_stat ds
    | Some a => exists ws sl, given a ws /\ Forall2 (fun w s => w = stat_name s) ws sl /\ spread sl (length l) ss
    end /\
    Forall2 suitable ds ss.
Proof.
  intros M additive da ma sa ds ms ss. unfold parse_input. split.
  - intros H. destruct (get_list da) as [l|] eqn:Ed; [|discriminate]. cbn [bind] in H. apply get_list_spec in Ed.
    assert (Hl : (0 < length l)%nat) by (destruct Ed as [(x & _ & ->)|[_ N]]; [cbn; lia|destruct l; [now destruct N|cbn; lia]]).
    set (dl := map (fun p => get_fixed_data (fst p) (snd p)) l) in *.
    destruct (nodupb (map f_name dl)) eqn:En; [|discriminate]. cbn [negb] in H.
    destruct (get_list ma) as [ml|] eqn:Em; [|discriminate]. cbn [bind] in H. apply get_list_spec in Em.
    destruct (forallb additive ml) eqn:Ea; [|discriminate]. cbn [negb] in H.
    assert (Ln : length dl = length l) by apply map_length. rewrite Ln in H.
    assert (P : forall sl, bind (broadcast ml (length l)) (fun ms => bind (broadcast sl (length l)) (fun ss => bind (check_all (combine dl ss)) (fun _ => Ok (dl, ms, ss)))) = Ok (ds, ms, ss) ->
      ds = dl /\ spread ml (length l) ms /\ spread sl (length l) ss /\ Forall2 suitable dl ss).
    { intros sl Hp. destruct (broadcast ml (length l)) as [ms'|] eqn:B1; [|discriminate]. cbn [bind] in Hp.
      destruct (broadcast sl (length l)) as [ss'|] eqn:B2; [|discriminate]. cbn [bind] in Hp.
      destruct (check_all (combine dl ss')) as [[]|] eqn:C; [|discriminate]. cbn [bind] in Hp. injection Hp as <- <- <-.
      apply (broadcast_spec _ _ _ Hl) in B1. apply (broadcast_spec _ _ _ Hl) in B2.
      split; [reflexivity|]. split; [exact B1|]. split; [exact B2|]. apply check_all_spec; [|exact C].
      rewrite Ln. destruct B2 as [(x & _ & ->)|[E ->]]; [now rewrite repeat_length|now symmetry]. }
    exists l, ml. apply nodupb_spec in En. unfold dl in En. rewrite map_map in En. cbn [f_name get_fixed_data] in En.
    assert (Fa : Forall (fun m => additive m = true) ml) by (apply Forall_forall; now apply forallb_forall).
    destruct sa as [a|].
    + destruct (get_list a) as [ws|] eqn:Ew; [|discriminate]. cbn [bind] in H. apply get_list_spec in Ew.
      destruct (forallb is_some (map parse_stat ws)) eqn:Es; [|discriminate]. cbn [bind] in H.
      apply P in H as (-> & B1 & B2 & F). repeat (split; [assumption || reflexivity|]). split; [|exact F]. exists ws. eexists. split; [exact Ew|]. split; [|exact B2].
      apply parse_all. now split.
    + cbn [bind] in H. apply P in H as (-> & B1 & B2 & F). repeat (split; [assumption || reflexivity|]). split; [|exact F].
      destruct B2 as [(x & E & ->)|[_ ->]]; [|reflexivity]. pose proof (f_equal (@length _) E) as L1. rewrite map_length, Ln in L1. cbn in L1. rewrite L1. cbn [repeat]. symmetry. exact E.
  - intros (l & ml & Hd & -> & N & Hm & Fa & B1 & Hs & F). 
    assert (Hl : (0 < length l)%nat) by (destruct Hd as [(x & _ & ->)|[_ Nn]]; [cbn; lia|destruct l; [now destruct Nn|cbn; lia]]).
    apply get_list_spec in Hd. rewrite Hd. cbn [bind]. set (dl := map (fun p => get_fixed_data (fst p) (snd p)) l) in *.
    assert (En : nodupb (map f_name dl) = true) by (apply nodupb_spec; unfold dl; rewrite map_map; exact N). rewrite En. cbn [negb].
    apply get_list_spec in Hm. rewrite Hm. cbn [bind].
    assert (Ea : forallb additive ml = true) by (apply forallb_forall; now apply Forall_forall). rewrite Ea. cbn [negb].
    assert (Ln : length dl = length l) by apply map_length. rewrite Ln.
    apply (broadcast_spec _ _ _ Hl) in B1.
    assert (C : check_all (combine dl ss) = Ok tt) by (apply check_all_spec; [exact (Forall2_length _ _ _ F)|exact F]).
    destruct sa as [a|].
    + destruct Hs as (ws & sl & Hw & Hp & B2). apply get_list_spec in Hw. rewrite Hw. cbn [bind]. apply parse_all in Hp as [-> ->]. cbn [bind].
      apply (broadcast_spec _ _ _ Hl) in B2. rewrite B1. cbn [bind]. rewrite B2. cbn [bind]. now rewrite C.
    + subst ss. cbn [bind]. rewrite B1. cbn [bind].
      assert (B2 : broadcast (map get_stat dl) (length l) = Ok (map get_stat dl)).
      { apply broadcast_spec; [exact Hl|]. right. split; [now rewrite map_length|reflexivity]. }
      rewrite B2. cbn [bind]. now rewrite C.
Qed.
Print Assumptions C43_accepts.

(** the automatic choice depends only on the kinds of counts the observation was built from, whatever was done to it *)
Theorem C43_automatic : forall er s r b ib o ops name, built er s r b ib o ->
  get_stat (get_fixed_data name (run o ops)) =
  match s_poisson s, b with
  | false, _ => Chi2
  | true, None => Cstat
  | true, Some b' => if s_poisson b' then Wstat else Pgstat
  end.
Proof.
  intros er s r b ib o ops name H. destruct (built_inv er s r b ib o ops H) as (n & _ & _ & _ & _ & _ & [E1 _ E3 _ _ _ E7 _]).
  unfold get_stat, get_fixed_data. cbn [f_poisson f_back]. rewrite E1, E3, E7. destruct b as [b'|]; cbn [exposed_of x_back]; destruct (s_poisson s); reflexivity.
Qed.
Print Assumptions C43_automatic.

(** the automatic choice passes its own check, except for zero uncertainties of Gaussian counts *)
Theorem C43_automatic_suitable : forall d, suitable d (get_stat d) <->
  (f_poisson d = false -> Forall (fun e => e <> 0) (f_net_errors d)) /\
  (forall b, f_poisson d = true -> f_back d = Some b -> fb_poisson b = false -> Forall (fun e => e <> 0) (fb_errors b)).
Proof.
  intros d. unfold get_stat. destruct (f_poisson d) eqn:Ep.
  - destruct (f_back d) as [b|] eqn:Eb; [destruct (fb_poisson b) eqn:Eq|]; cbn [suitable].
    + split; [intros _; split; [discriminate|intros b' _ E; injection E as <-; congruence]|]. intros _. split; [exact Ep|]. now exists b.
    + split.
      * intros (_ & b' & E & F). split; [discriminate|]. intros b2 _ E2 _. congruence.
      * intros [_ H]. split; [exact Ep|]. exists b. split; [exact Eb|]. now apply H.
    + split; [intros _; split; [discriminate|intros b' _ E; discriminate]|]. intros _. now split.
  - cbn [suitable]. split; [intros F; split; [easy|discriminate]|]. intros [H _]. now apply H.
Qed.
Print Assumptions C43_automatic_suitable.

(** the i-th data set is fitted with the i-th model and the i-th statistic *)
Theorem C43_tables : forall M (additive : M -> bool) da ma sa t, fit_init additive da ma sa = Ok t ->
  exists l ms ss, given da l /\ parse_input additive da ma sa = Ok (map (fun p => get_fixed_data (fst p) (snd p)) l, ms, ss) /\
  length ms = length l /\ length ss = length l /\
  forall i name o, nth_error l i = Some (name, o) ->
    get (ft_data t) name = Some (get_fixed_data name o) /\ get (ft_model t) name = nth_error ms i /\ get (ft_stat t) name = nth_error ss i.
Proof.
  intros M additive da ma sa t H. unfold fit_init in H. destruct (parse_input additive da ma sa) as [[[ds ms] ss]|] eqn:E; [|discriminate]. cbn [bind] in H. injection H as <-.
  pose proof E as E0. apply C43_accepts in E0 as (l & ml & Hd & -> & N & _ & _ & B1 & _ & F). exists l, ms, ss. split; [exact Hd|]. split; [reflexivity|].
  assert (L1 : length ms = length l) by (destruct B1 as [(x & _ & ->)|[L ->]]; [apply repeat_length|exact L]).
  assert (L2 : length ss = length l) by (apply Forall2_length in F; now rewrite map_length in F). split; [exact L1|]. split; [exact L2|].
  intros i name o Hi. rewrite map_map. cbn [f_name get_fixed_data ft_data ft_model ft_stat].
  assert (Hlt : (i < length l)%nat) by (apply nth_error_Some; congruence).
  assert (Hk : nth_error (map (fun p : str * obs => fst p) l) i = Some name) by (rewrite nth_error_map, Hi; reflexivity).
  split; [|split].
  - apply (dict_of_get _ _ i); [exact N|exact Hk|]. rewrite nth_error_map, Hi. reflexivity.
  - destruct (nth_error ms i) as [m|] eqn:Em; [|apply nth_error_None in Em; lia]. now apply (dict_of_get _ _ i).
  - destruct (nth_error ss i) as [m|] eqn:Em; [|apply nth_error_None in Em; lia]. now apply (dict_of_get _ _ i).
Qed.
Print Assumptions C43_tables.

(** Non-vacuity: two observations, one with a Poisson background, one model for both, automatic statistics *)
Example C43_ex : exists o1 o2 t, fit_init (fun m : nat => Nat.eqb m 7) (Many [Some (s2l "A", o1); Some (s2l "B", o2)]) (One 7%nat) None = Ok t /\
  get (ft_stat t) (s2l "A") = Some Wstat /\ get (ft_stat t) (s2l "B") = Some Cstat /\ get (ft_model t) (s2l "B") = Some 7%nat.
Proof.
  destruct C18_ex as (o1 & H1). destruct (ex_obs 7 3 None) as (o2 & E2); [now left|].
  assert (H2 : built [(4, 5); (1, 3)] (ex_spec 7) (ex_resp 3) None true o2).
  { split; [apply ex_spec_valid; lra|]. split; [apply ex_resp_valid|]. split; [discriminate|exact E2]. }
  exists o1, o2. set (d1 := get_fixed_data (s2l "A") o1) in *. set (d2 := get_fixed_data (s2l "B") o2) in *.
  assert (A1 : get_stat d1 = Wstat) by exact (C43_automatic _ _ _ _ _ _ [] (s2l "A") H1). assert (A2 : get_stat d2 = Cstat) by exact (C43_automatic _ _ _ _ _ _ [] (s2l "B") H2).
  assert (P : parse_input (fun m : nat => Nat.eqb m 7) (Many [Some (s2l "A", o1); Some (s2l "B", o2)]) (One 7%nat) None = Ok ([d1; d2], [7; 7]%nat, [Wstat; Cstat])).
  { apply C43_accepts. exists [(s2l "A", o1); (s2l "B", o2)], [7%nat]. split; [right; split; [reflexivity|discriminate]|]. split; [reflexivity|].
    split; [constructor; [intros [E|[]]; discriminate|constructor; [intros []|constructor]]|]. split; [left; eauto|]. split; [repeat constructor|].
    split; [left; eexists; split; reflexivity|]. split; [cbn [map fst snd]; fold d1 d2; now rewrite A1, A2|]. cbn [map fst snd]. fold d1 d2.
    constructor; [rewrite <- A1|constructor; [rewrite <- A2|constructor]]; apply C43_automatic_suitable.
    - unfold get_stat in A1. destruct (f_poisson d1); [|discriminate]. split; [discriminate|]. intros b _ Eb Eq. rewrite Eb, Eq in A1. discriminate.
    - unfold get_stat in A2. destruct (f_poisson d2); [|discriminate]. split; [discriminate|]. intros b _ Eb Eq. rewrite Eb, Eq in A2. discriminate. }
  unfold fit_init. rewrite P. cbn [bind]. eexists. split; [reflexivity|]. repeat split; reflexivity.
Qed.
