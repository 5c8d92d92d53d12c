(** C126: titles and labels of parameters. *)
From Coq Require Import Ascii String.
From Verif Require Import Base Expr Composite CompositeProofs Namespace NamespaceProofs ModelInfo ModelInfoProofs ModelInfoProofs2 CompileProofs
  Prop_Compile HelperNames HelperNamesProofs UnitText ParamLabels.
From Coq Require Import List.
Import ListNotations.
Open Scope list_scope.

(** the slot that holds [p] and comes last in the model *)
Definition last_user (h : heap) (comps : list comp) (p : param) (u : slot) : Prop :=
  exists before after, slots_of comps = before ++ u :: after /\ h_slot h u = Some p /\ forall s, In s after -> h_slot h s <> Some p.
(** astropy answers or says that it does not know the unit *)
Definition only_value_error (parse : str -> res (list ubase * str)) : Prop := forall u e, parse u = Err e -> e = ValueError.

(** ** dictionaries *)
Lemma dget_dput {V} (d : list (nat * V)) k v i : dget (dput d k v) i = if Nat.eqb i k then Some v else dget d i.
Proof.
  induction d as [|[j w] d IH]; cbn [dput dget]; [reflexivity|]. destruct (Nat.eqb_spec k j) as [->|N]; cbn [dget].
  - destruct (Nat.eqb_spec i j); reflexivity.
  - destruct (Nat.eqb_spec i j) as [->|]; [|exact IH]. destruct (Nat.eqb_spec j k); [congruence|reflexivity].
Qed.
Lemma dget_dunion {V} (y : list (nat * V)) : forall x i, NoDup (map fst y) -> dget (dunion x y) i = match dget y i with Some v => Some v | None => dget x i end.
Proof.
  unfold dunion. induction y as [|[k v] y IH]; intros x i N; [reflexivity|]. cbn [map fst] in N. inversion N as [|? ? N1 N2]; subst.
  cbn [fold_left fst snd]. rewrite IH by exact N2. cbn [dget]. rewrite dget_dput. destruct (Nat.eqb_spec i k) as [->|]; [|reflexivity].
  assert (dget y k = None) as -> by now apply dget_none. reflexivity.
Qed.
Lemma dget_const (l : list nat) i : dget (map (fun i => (i, @nil ascii)) l) i = if existsb (Nat.eqb i) l then Some [] else None.
Proof. induction l as [|j l IH]; [reflexivity|]. cbn [map dget existsb]. destruct (Nat.eqb i j); [reflexivity|exact IH]. Qed.
Lemma map_fst_const (l : list nat) : map fst (map (fun i => (i, @nil ascii)) l) = l.
Proof. rewrite map_map. cbn. apply map_id. Qed.

Lemma slot_fold {V} h (f : slot -> param -> V) : forall l d, NoDup (map fst d) ->
  let d' := fold_left (fun d s => match h_slot h s with Some p => dput d (pid p) (f s p) | None => d end) l d in
  NoDup (map fst d') /\
  forall i, (exists b u a p, l = b ++ u :: a /\ h_slot h u = Some p /\ pid p = i /\ (forall s q, In s a -> h_slot h s = Some q -> pid q <> i) /\ dget d' i = Some (f u p)) \/
            ((forall s q, In s l -> h_slot h s = Some q -> pid q <> i) /\ dget d' i = dget d i).
Proof.
  induction l as [|s l IH]; intros d N; cbv zeta; cbn [fold_left]; [split; [exact N|]; intros i; right; split; [easy|reflexivity]|].
  set (d1 := match h_slot h s with Some p => dput d (pid p) (f s p) | None => d end).
  assert (N1 : NoDup (map fst d1)) by (unfold d1; destruct (h_slot h s); [now apply dput_nodup|exact N]).
  destruct (IH d1 N1) as (A & B). split; [exact A|]. intros i. destruct (B i) as [(b & u & a & p & E & Eu & Ei & La & G)|(La & G)].
  - left. exists (s :: b), u, a, p. split; [rewrite E; reflexivity|]. split; [exact Eu|]. split; [exact Ei|]. split; [exact La|exact G].
  - rewrite G. unfold d1. destruct (h_slot h s) as [p|] eqn:Es.
    + rewrite dget_dput. destruct (Nat.eqb_spec i (pid p)) as [->|Ni].
      * left. exists [], s, l, p. split; [reflexivity|]. split; [exact Es|]. split; [reflexivity|]. split; [exact La|reflexivity].
      * right. split; [|reflexivity]. intros t q [<-|Ht] Eq; [congruence|eauto].
    + right. split; [|reflexivity]. intros t q [<-|Ht] Eq; [congruence|eauto].
Qed.

Lemma mapR_exists {A B} (f : A -> res B) l : (forall x, In x l -> exists y, f x = Ok y) -> exists ys, mapR f l = Ok ys /\ Forall2 (fun x y => f x = Ok y) l ys.
Proof.
  induction l as [|x l IH]; intros H; [now exists []|]. destruct (H x (or_introl eq_refl)) as (y & E). destruct IH as (ys & E' & F); [intros z Hz; apply H; now right|].
  exists (y :: ys). cbn [mapR]. rewrite E. cbn [bind]. rewrite E'. split; [reflexivity|]. now constructor.
Qed.
Lemma Forall2_in_l {A B} (P : A -> B -> Prop) l m x : Forall2 P l m -> In x l -> exists y, In y m /\ P x y.
Proof. induction 1 as [|a b l m Pab F IH]; [easy|]. intros [<-|Hx]; [exists b; split; [now left|exact Pab]|]. destruct (IH Hx) as (y & Hy & Py). exists y. split; [now right|exact Py]. Qed.

Lemma pname_table_ok {V} mi (f : nat -> res V) : NoDup (map snd (mi_name mi)) -> (forall i n, In (i, n) (mi_name mi) -> exists v, f i = Ok v) ->
  exists t, pname_table mi f = Ok t /\ forall i n v, In (i, n) (mi_name mi) -> f i = Ok v -> get t n = Some v.
Proof.
  intros N H. unfold pname_table.
  destruct (mapR_exists (fun e : nat * str => bind (f (fst e)) (fun v => Ok (snd e, v))) (mi_name mi)) as (l & E & F).
  { intros [i n] Hi. destruct (H i n Hi) as (v & Ev). cbn [fst snd]. rewrite Ev. cbn [bind]. now eexists. }
  rewrite E. cbn [bind].
  assert (K : map fst l = map snd (mi_name mi)).
  { clear -F. induction F as [|[i n] [m v] a b P F IH]; [reflexivity|]. cbn [map fst snd] in *. rewrite IH. f_equal. destruct (f i); cbn [bind] in P; [|discriminate]. congruence. }
  assert (Nl : NoDup (map fst l)) by now rewrite K. rewrite (fold_put_dict l []) by exact Nl.
  cbn [List.app]. eexists. split; [reflexivity|]. intros i n v Hi Ev. apply get_nodup; [exact Nl|].
  destruct (Forall2_in_l _ _ _ _ F Hi) as ([m w] & Hy & P). cbn [fst snd] in P. rewrite Ev in P. cbn [bind] in P. injection P as <- <-. exact Hy.
Qed.

Section Tables.
Variables (kind : nat -> pkind) (bname cname : nat -> str) (ops : list hop) (h : heap) (comps : list comp).
Variables (clat plat : nat -> str) (unit : slot -> str) (parse : str -> res (list ubase * str)).
Hypothesis St : session ops h comps.
Hypothesis G : good_names bname cname comps.
Hypothesis Hparse : only_value_error parse.
Let mi := the_info kind h bname cname comps.
Let cp i := get_comp_param (h_trk h i) (map c_id comps).
Let aux := aux_ids h comps mi.

Lemma facts : exists dead, hinv (ops_params ops) dead h /\ model_ok h comps /\ coherent (ops_params ops) /\ (forall c, In c comps -> ~ In (c_id c) dead).
Proof. destruct (session_inv _ _ _ St) as (dead & I & D). exists dead. split; [exact I|]. split; [exact (se_model _ _ _ St)|]. split; [exact (se_objects _ _ _ St)|exact D]. Qed.

Lemma mi_nodup : NoDup (map fst (mi_info mi)).
Proof. destruct facts as (dead & I & M & O & D). unfold mi. cbn [mi_info the_info]. eapply info_nodup; eauto. Qed.
Lemma aux_nodup : NoDup aux.
Proof.
  unfold aux, aux_ids. pose proof mi_nodup as N. revert N. induction (mi_info mi) as [|e l IH]; intros N; [constructor|]. cbn [map] in N. inversion N as [|? ? N1 N2]; subst.
  cbn [filter]. match goal with |- context [if ?c then _ else _] => destruct c end; [|auto]. cbn [map]. constructor; [|auto].
  intros K. apply N1. apply in_map_iff in K as (x & Ex & Kx). apply filter_In in Kx as (Kx & _). rewrite <- Ex. now apply in_map.
Qed.
Lemma aux_cp i : In i aux -> cp i = None.
Proof.
  unfold aux, aux_ids. intros K. apply in_map_iff in K as (x & <- & Kx). apply filter_In in Kx as (_ & Kx). fold (cp (fst x)) in Kx. destruct (cp (fst x)); [discriminate|reflexivity].
Qed.
Lemma names_in i n : In (i, n) (mi_name mi) <->
  In (i, n) (combine aux (build_namespace (map bname aux) false true)) \/ In i (map fst (mi_info mi)) /\ exists s, cp i = Some s /\ n = dotted (cname (fst s)) (snd s).
Proof.
  assert (E : combine aux (build_namespace (map bname aux) false true) =
    combine (map fst (filter (fun e => match cp (fst e) with Some _ => false | None => negb (is_comp (snd e)) end) (mi_info mi)))
      (build_namespace (map (fun e => bname (fst e)) (filter (fun e => match cp (fst e) with Some _ => false | None => negb (is_comp (snd e)) end) (mi_info mi))) false true)).
  { unfold aux, aux_ids. now rewrite map_map. }
  rewrite E. unfold mi at 1. cbn [mi_name the_info]. rewrite in_app_iff.
  assert (X : In (i, n) (flat_map (fun e : nat * param => match cp (fst e) with Some s => [(fst e, dotted (cname (fst s)) (snd s))] | None => [] end) (mi_info mi)) <->
    In i (map fst (mi_info mi)) /\ exists s, cp i = Some s /\ n = dotted (cname (fst s)) (snd s)); [|unfold mi in X |- *; cbn [mi_info the_info] in X |- *; tauto].
  rewrite in_flat_map. split.
  - intros (e & He & K). destruct (cp (fst e)) as [s|] eqn:Es; [|easy]. destruct K as [K|[]]. injection K as <- <-. split; [now apply in_map|]. exists s. now split.
  - intros (Hi & s & Es & ->). apply in_map_iff in Hi as (e & <- & He). exists e. split; [exact He|]. rewrite Es. now left.
Qed.

(** the parameter of a slot *)
Lemma slot_facts s p : In s (slots_of comps) -> h_slot h s = Some p ->
  In (pid p) (map fst (mi_info mi)) /\ ~ In (pid p) aux /\ exists r, cp (pid p) = Some r /\ In r (slots_of comps) /\ h_slot h r = Some p.
Proof.
  intros Hs Ep. destruct facts as (dead & I & M & O & D).
  assert (Esp : slot_param h s = p) by (unfold slot_param; now rewrite Ep).
  destruct (cp_held h comps (ops_params ops) dead I M s Hs) as (r & Er). rewrite Esp in Er.
  split; [|split].
  - unfold mi. cbn [mi_info the_info]. apply in_map_iff. exists (pid p, p). split; [reflexivity|].
    eapply info_spec with (dead := dead) (ps := ops_params ops); eauto. split; [reflexivity|]. exists p. split; [|constructor]. now exists s.
  - intros K. apply aux_cp in K. unfold cp in K. congruence.
  - exists r. split; [exact Er|]. 
    assert (Er' : get_comp_param (h_trk h (pid (slot_param h s))) (map c_id comps) = Some r) by (rewrite Esp; exact Er).
    destruct (cp_slot h comps (ops_params ops) dead O I M D s r Hs Er') as (Hr & Er2). split; [exact Hr|].
    rewrite (slot_param_ok h comps M r Hr). rewrite Er2. now rewrite Esp.
Qed.
Lemma same_pid s p t q : In s (slots_of comps) -> h_slot h s = Some p -> h_slot h t = Some q -> pid p = pid q -> p = q.
Proof. intros _ Ep Eq E. destruct facts as (dead & I & M & O & D). apply (O p q); auto using part_refl; eapply hi_ps; eauto. Qed.

Lemma comp_latex_slot s p : In s (slots_of comps) -> h_slot h s = Some p ->
  exists r, cp (pid p) = Some r /\ In r (slots_of comps) /\ h_slot h r = Some p /\ dget (comp_latex_mapping h comps clat mi) (pid p) = Some (clat (fst r)).
Proof.
  intros Hs Ep. destruct (slot_facts s p Hs Ep) as (A & B & r & Er & Hr & Er2). exists r. split; [exact Er|]. split; [exact Hr|]. split; [exact Er2|].
  unfold comp_latex_mapping. rewrite dget_dunion by (rewrite map_fst_const; exact aux_nodup). fold aux. rewrite dget_const.
  assert (existsb (Nat.eqb (pid p)) aux = false) as -> by (apply not_true_iff_false; rewrite existsb_eqb; exact B).
  exact (dget_names_comp cp (fun s => clat (fst s)) (mi_info mi) (pid p) r A Er).
Qed.
Lemma comp_latex_aux i : In i aux -> dget (comp_latex_mapping h comps clat mi) i = Some [].
Proof.
  intros Hi. unfold comp_latex_mapping. rewrite dget_dunion by (rewrite map_fst_const; exact aux_nodup). fold aux. rewrite dget_const.
  apply existsb_eqb in Hi. now rewrite Hi.
Qed.
Lemma slot_dict_slot {V} (f : slot -> param -> V) s p : In s (slots_of comps) -> h_slot h s = Some p ->
  exists u, last_user h comps p u /\ dget (slot_dict h comps f) (pid p) = Some (f u p).
Proof.
  intros Hs Ep. destruct (slot_fold h f (slots_of comps) [] (NoDup_nil _)) as (_ & B). destruct (B (pid p)) as [(b & u & a & q & E & Eu & Ei & La & Gt)|(La & _)].
  - assert (p = q) by (eapply same_pid; eauto). subst q. exists u. split; [|exact Gt]. exists b, a. split; [exact E|]. split; [exact Eu|].
    intros t Ht Et. exact (La t p Ht Et eq_refl).
  - contradiction (La s p Hs Ep eq_refl).
Qed.
Lemma slot_dict_aux {V} (f : slot -> param -> V) i : In i aux -> dget (slot_dict h comps f) i = None.
Proof.
  intros Hi. destruct (slot_fold h f (slots_of comps) [] (NoDup_nil _)) as (_ & B). destruct (B i) as [(b & u & a & q & E & Eu & Ei & _ & _)|(_ & Gt)]; [|exact Gt].
  exfalso. destruct (slot_facts u q) as (_ & N & _); [rewrite E; apply in_app_iff; right; now left|exact Eu|]. apply N. now rewrite Ei.
Qed.
Lemma slot_dict_nodup {V} (f : slot -> param -> V) : NoDup (map fst (slot_dict h comps f)).
Proof. exact (proj1 (slot_fold h f (slots_of comps) [] (NoDup_nil _))). Qed.
Lemma latex_slot s p : In s (slots_of comps) -> h_slot h s = Some p -> dget (latex_mapping h comps plat mi) (pid p) = Some (plat (pid p)).
Proof.
  intros Hs Ep. unfold latex_mapping. rewrite dget_dunion by apply slot_dict_nodup.
  destruct (slot_dict_slot (fun _ q => plat (pid q)) s p Hs Ep) as (u & _ & ->). reflexivity.
Qed.
Lemma latex_aux k : (k < length aux)%nat -> dget (latex_mapping h comps plat mi) (nth k aux 0) = Some (nth k (build_namespace (map plat aux) true true) []).
Proof.
  intros Hk. unfold latex_mapping. rewrite dget_dunion by apply slot_dict_nodup. rewrite slot_dict_aux by now apply nth_In. fold aux.
  assert (Ln : length aux = length (build_namespace (map plat aux) true true)) by now rewrite build_length, map_length.
  apply dget_nodup; [rewrite map_fst_combine by exact Ln; exact aux_nodup|].
  rewrite <- (combine_nth aux _ k 0 []) by exact Ln. apply nth_In. rewrite combine_length. lia.
Qed.
Lemma unit_slot s p : In s (slots_of comps) -> h_slot h s = Some p -> exists u, last_user h comps p u /\ dget (unit_mapping h comps unit mi) (pid p) = Some (unit u).
Proof.
  intros Hs Ep. destruct (slot_facts s p Hs Ep) as (_ & B & _). unfold unit_mapping. rewrite dget_dunion by (rewrite map_fst_const; exact aux_nodup). fold aux. rewrite dget_const.
  assert (existsb (Nat.eqb (pid p)) aux = false) as -> by (apply not_true_iff_false; rewrite existsb_eqb; exact B).
  exact (slot_dict_slot (fun s _ => unit s) s p Hs Ep).
Qed.
Lemma unit_aux i : In i aux -> dget (unit_mapping h comps unit mi) i = Some [].
Proof.
  intros Hi. unfold unit_mapping. rewrite dget_dunion by (rewrite map_fst_const; exact aux_nodup). fold aux. rewrite dget_const.
  apply existsb_eqb in Hi. now rewrite Hi.
Qed.
Lemma unit_text u : exists t, get_unit_latex parse u false = Ok t.
Proof.
  unfold get_unit_latex. destruct u as [|c u]; [now exists []|]. destruct (parse (c :: u)) as [[bs sc]|e] eqn:E; [now eexists|].
  rewrite (Hparse _ _ E). now exists [].
Qed.
(** every named parameter is in a slot or auxiliary *)
Lemma named_cases i n : In (i, n) (mi_name mi) -> In i aux \/ exists s p, In s (slots_of comps) /\ h_slot h s = Some p /\ pid p = i.
Proof.
  intros Hn. apply names_in in Hn as [Hn|(_ & s & Es & _)]; [left; now apply in_combine_l in Hn|]. right.
  destruct facts as (dead & I & M & O & D). destruct (cp_some h comps (ops_params ops) dead I M D i s Es) as (Hs & Ei).
  exists s, (slot_param h s). split; [exact Hs|]. split; [exact (slot_param_ok h comps M s Hs)|exact Ei].
Qed.
Lemma lookup_aux_k i : In i aux -> exists k, (k < length aux)%nat /\ nth k aux 0 = i.
Proof. intros Hi. apply (In_nth _ _ 0) in Hi as (k & Hk & E). now exists k. Qed.

Lemma tables : exists L U C, params_latex h comps plat mi = Ok L /\ params_unit h comps unit mi parse = Ok U /\ params_comp_latex h comps clat mi = Ok C /\
  (forall i n v, In (i, n) (mi_name mi) -> dget (latex_mapping h comps plat mi) i = Some v -> get L n = Some v) /\
  (forall i n v t, In (i, n) (mi_name mi) -> dget (unit_mapping h comps unit mi) i = Some v -> get_unit_latex parse v false = Ok t -> get U n = Some t) /\
  (forall i n v, In (i, n) (mi_name mi) -> dget (comp_latex_mapping h comps clat mi) i = Some v -> get C n = Some v) /\
  forall n, In n (map snd (mi_name mi)) -> (exists v, get L n = Some v) /\ (exists v, get U n = Some v) /\ (exists v, get C n = Some v).
Proof.
  pose proof (Fnames kind bname cname ops h comps St G) as N. fold mi in N.
  assert (TL : forall i n, In (i, n) (mi_name mi) -> exists v, dget (latex_mapping h comps plat mi) i = Some v).
  { intros i n Hn. destruct (named_cases i n Hn) as [Ha|(s & p & Hs & Ep & <-)]; [|eexists; eapply latex_slot; eauto].
    destruct (lookup_aux_k i Ha) as (k & Hk & <-). eexists. now apply latex_aux. }
  assert (TU : forall i n, In (i, n) (mi_name mi) -> exists v, dget (unit_mapping h comps unit mi) i = Some v).
  { intros i n Hn. destruct (named_cases i n Hn) as [Ha|(s & p & Hs & Ep & <-)]; [eexists; now apply unit_aux|]. destruct (unit_slot s p Hs Ep) as (u & _ & E). eexists; exact E. }
  assert (TC : forall i n, In (i, n) (mi_name mi) -> exists v, dget (comp_latex_mapping h comps clat mi) i = Some v).
  { intros i n Hn. destruct (named_cases i n Hn) as [Ha|(s & p & Hs & Ep & <-)]; [eexists; now apply comp_latex_aux|]. destruct (comp_latex_slot s p Hs Ep) as (u & _ & _ & _ & E). eexists; exact E. }
  destruct (pname_table_ok mi (fun i => opt_res KeyError (dget (latex_mapping h comps plat mi) i)) N) as (L & EL & GL); [intros i n Hn; destruct (TL i n Hn) as (v & ->); exists v; reflexivity|].
  destruct (pname_table_ok mi (fun i => bind (opt_res KeyError (dget (unit_mapping h comps unit mi) i)) (fun u => get_unit_latex parse u false)) N) as (U & EU & GU).
  { intros i n Hn. destruct (TU i n Hn) as (v & ->). cbn [opt_res bind]. apply unit_text. }
  destruct (pname_table_ok mi (fun i => opt_res KeyError (dget (comp_latex_mapping h comps clat mi) i)) N) as (C & EC & GC); [intros i n Hn; destruct (TC i n Hn) as (v & ->); exists v; reflexivity|].
  exists L, U, C. split; [exact EL|]. split; [exact EU|]. split; [exact EC|].
  split; [intros i n v Hn E; apply (GL i n v Hn); now rewrite E|].
  split; [intros i n v t Hn E Et; apply (GU i n t Hn); rewrite E; exact Et|].
  split; [intros i n v Hn E; apply (GC i n v Hn); now rewrite E|].
  intros n Hn. apply in_map_iff in Hn as ([i m] & <- & Hn). cbn [snd]. split; [|split].
  - destruct (TL i m Hn) as (v & E). exists v. apply (GL i m v Hn). now rewrite E.
  - destruct (TU i m Hn) as (v & E). destruct (unit_text v) as (t & Et). exists t. apply (GU i m t Hn). rewrite E. exact Et.
  - destruct (TC i m Hn) as (v & E). exists v. apply (GC i m v Hn). now rewrite E.
Qed.
End Tables.

(** what a reader sees: the texts that are not empty, in math mode, the unit in brackets on a second line *)
Inductive shown_comp : str -> str -> Prop := SCnone : shown_comp [] [] | SCsome c : c <> [] -> shown_comp c (s2l "$" ++ c ++ s2l "$ ").
Inductive shown_unit : str -> str -> Prop := SUnone : shown_unit [] [] | SUsome u : u <> [] -> shown_unit u ("010"%char :: s2l "[" ++ u ++ s2l "]").
Lemma shown_comp_ok c : shown_comp c (math_comp c).
Proof. destruct c; constructor. discriminate. Qed.
Lemma shown_unit_ok u : shown_unit u (in_brackets u).
Proof. destruct u; constructor. discriminate. Qed.

(** every model and every selection of its parameters: one title and one label for every parameter, in order.  The title of a component
    parameter names a component that has this parameter (the one of its public name) and its own LaTeX text; the label adds the unit of the
    last component parameter that is this parameter.  Auxiliary parameters have no component and no unit, and their LaTeX texts are told apart *)
Theorem C126_texts : forall kind bname cname ops h comps clat plat unit parse, session ops h comps -> good_names bname cname comps -> only_value_error parse ->
  exists mi, get_model_info kind h bname cname comps = Ok mi /\
  forall all, incl all (map snd (mi_name mi)) ->
  exists ts ls, params_titles h comps clat plat unit mi parse all = Ok ts /\ params_labels h comps clat plat unit mi parse all = Ok ls /\
    map fst ts = all /\ map fst ls = all /\
    (forall s p, In s (slots_of comps) -> h_slot h s = Some p -> exists r u c t, In r (slots_of comps) /\ h_slot h r = Some p /\ last_user h comps p u /\
      In (pid p, dotted (cname (fst r)) (snd r)) (mi_name mi) /\ shown_comp (clat (fst r)) c /\
      (forall ut, get_unit_latex parse (unit u) false = Ok ut -> shown_unit ut t) /\
      (In (dotted (cname (fst r)) (snd r)) all ->
         In (dotted (cname (fst r)) (snd r), c ++ s2l "$" ++ plat (pid p) ++ s2l "$") ts /\
         In (dotted (cname (fst r)) (snd r), c ++ (s2l "$" ++ plat (pid p) ++ s2l "$") ++ t) ls)) /\
    (exists aux, NoDup aux /\
      (forall i, In i aux <-> exists n, In (i, n) (mi_name mi) /\ forall s p, In s (slots_of comps) -> h_slot h s = Some p -> pid p <> i) /\
      forall k, (k < length aux)%nat ->
        let name := nth k (build_namespace (map bname aux) false true) [] in
        let text := nth k (build_namespace (map plat aux) true true) [] in
        In (nth k aux 0, name) (mi_name mi) /\
        (In name all -> In (name, s2l "$" ++ text ++ s2l "$") ts /\ In (name, s2l "$" ++ text ++ s2l "$") ls)).
Proof.
  intros kind bname cname ops h comps clat plat unit parse St G HP. set (mi := the_info kind h bname cname comps). exists mi.
  split; [exact (mi_eq kind bname cname ops h comps St)|]. intros all Hall.
  destruct (tables kind bname cname ops h comps clat plat unit parse St G HP) as (L & U & C & EL & EU & EC & GL & GU & GC & Ex). fold mi in EL, EU, EC, GL, GU, GC, Ex.
  unfold params_titles, params_labels. rewrite EL, EU, EC. cbn [bind].
  destruct (mapR_exists (fun p => bind (look C p) (fun c => bind (look L p) (fun l => Ok (p, math_comp c ++ math l)))) all) as (ts & Et & Ft).
  { intros n Hn. destruct (Ex n (Hall n Hn)) as ((a & Ea) & _ & (b & Eb)). unfold look. rewrite Ea, Eb. eexists. reflexivity. }
  destruct (mapR_exists (fun p => bind (look C p) (fun c => bind (look L p) (fun l => bind (look U p) (fun u => Ok (p, math_comp c ++ math l ++ in_brackets u))))) all) as (ls & El & Fl).
  { intros n Hn. destruct (Ex n (Hall n Hn)) as ((a & Ea) & (d & Ed) & (b & Eb)). unfold look. rewrite Ea, Ed, Eb. eexists. reflexivity. }
  exists ts, ls. split; [exact Et|]. split; [exact El|].
  assert (Kt : map fst ts = all).
  { clear -Ft. induction Ft as [|p y a b P F IH]; [reflexivity|]. cbn [map]. rewrite IH. f_equal. unfold look in P.
    destruct (get C p); cbn [opt_res bind] in P; [|discriminate]. destruct (get L p); cbn [opt_res bind] in P; [|discriminate]. now injection P as <-. }
  assert (Kl : map fst ls = all).
  { clear -Fl. induction Fl as [|p y a b P F IH]; [reflexivity|]. cbn [map]. rewrite IH. f_equal. unfold look in P.
    destruct (get C p); cbn [opt_res bind] in P; [|discriminate]. destruct (get L p); cbn [opt_res bind] in P; [|discriminate].
    destruct (get U p); cbn [opt_res bind] in P; [|discriminate]. now injection P as <-. }
  split; [exact Kt|]. split; [exact Kl|].
  assert (Row : forall n c l u, In n all -> get C n = Some c -> get L n = Some l -> get U n = Some u ->
    In (n, math_comp c ++ math l) ts /\ In (n, math_comp c ++ math l ++ in_brackets u) ls).
  { intros n c l u Hn Ec El' Eu. split.
    - destruct (Forall2_in_l _ _ _ _ Ft Hn) as (y & Hy & P). unfold look in P. rewrite Ec, El' in P. cbn [opt_res bind] in P. now injection P as <-.
    - destruct (Forall2_in_l _ _ _ _ Fl Hn) as (y & Hy & P). unfold look in P. rewrite Ec, El', Eu in P. cbn [opt_res bind] in P. now injection P as <-. }
  split.
  - intros s p Hs Ep. destruct (comp_latex_slot kind bname cname ops h comps clat St s p Hs Ep) as (r & Er & Hr & Er2 & Ecl). fold mi in Ecl.
    destruct (unit_slot kind bname cname ops h comps unit St s p Hs Ep) as (u & Hu & Eu). fold mi in Eu.
    destruct (unit_text parse HP (unit u)) as (ut & Eut).
    assert (Hn : In (pid p, dotted (cname (fst r)) (snd r)) (mi_name mi)).
    { apply names_in; try assumption. right. split; [|now exists r]. eapply slot_facts; eauto. }
    exists r, u, (math_comp (clat (fst r))), (in_brackets ut). split; [exact Hr|]. split; [exact Er2|]. split; [exact Hu|]. split; [exact Hn|].
    split; [apply shown_comp_ok|]. split; [intros ut' E'; rewrite Eut in E'; injection E' as <-; apply shown_unit_ok|].
    intros Ha. apply (Row _ (clat (fst r)) (plat (pid p)) ut Ha).
    + exact (GC _ _ _ Hn Ecl).
    + exact (GL _ _ _ Hn (latex_slot kind bname cname ops h comps plat St s p Hs Ep)).
    + exact (GU _ _ _ _ Hn Eu Eut).
  - exists (aux_ids h comps mi). split; [now apply (aux_nodup kind bname cname ops h comps)|]. split.
    + intros i. split.
      * intros Hi. destruct (In_nth _ _ 0 Hi) as (k & Hk & Ek). exists (nth k (build_namespace (map bname (aux_ids h comps mi)) false true) []). split.
        -- apply names_in; try assumption. left. rewrite <- Ek. fold mi.
           rewrite <- (combine_nth (aux_ids h comps mi) _ k 0 []) by now rewrite build_length, map_length. apply nth_In. rewrite combine_length, build_length, map_length. lia.
        -- intros s p Hs Ep E. destruct (slot_facts kind bname cname ops h comps St s p Hs Ep) as (_ & N & _). apply N. fold mi. now rewrite E.
      * intros (n & Hn & Hno). destruct (named_cases kind bname cname ops h comps clat plat St i n Hn) as [Ha|(s & p & Hs & Ep & Ei)]; [exact Ha|]. contradiction (Hno s p Hs Ep Ei).
    + intros k Hk. cbv zeta. set (aux := aux_ids h comps mi) in *.
      assert (Hn : In (nth k aux 0, nth k (build_namespace (map bname aux) false true) []) (mi_name mi)).
      { apply names_in; try assumption. left. fold mi. fold aux.
        rewrite <- (combine_nth aux _ k 0 []) by now rewrite build_length, map_length. apply nth_In. rewrite combine_length, build_length, map_length. lia. }
      split; [exact Hn|]. intros Ha. pose proof (nth_In aux 0 Hk) as Hi.
      destruct (Row _ [] (nth k (build_namespace (map plat aux) true true) []) [] Ha) as (R1 & R2).
      * exact (GC _ _ _ Hn (comp_latex_aux kind bname cname ops h comps clat St _ Hi)).
      * exact (GL _ _ _ Hn (latex_aux kind bname cname ops h comps plat St k Hk)).
      * exact (GU _ _ _ _ Hn (unit_aux kind bname cname ops h comps unit St _ Hi) eq_refl).
      * cbn [math_comp in_brackets] in R1, R2. rewrite app_nil_r in R2. split; assumption.
Qed.
Print Assumptions C126_texts.

(** ** the hypotheses are met by the model of Prop_Compile: a norm shared by a power law and a black body, and a temperature that is computed
    from the index and an auxiliary parameter *)
Definition ex_clat (c : nat) : str := if (c =? 1)%nat then s2l "PL" else [].
Definition ex_plat (i : nat) : str := match i with 3 => s2l "\Gamma" | 10 => s2l "K" | 20 => s2l "kT" | _ => s2l "x" end.
Definition ex_unit (s : slot) : str := match s with (1, ["K"%char]) => s2l "ph" | (2, ["K"%char]) => s2l "erg" | (2, _) => s2l "keV" | _ => [] end.
Definition ex_parse (u : str) : res (list ubase * str) :=
  if str_eqb u (s2l "keV") then Err ValueError else Ok ([{| b_name := u; b_aliases := []; b_power := None |}], []).
Example ex_parse_ok : only_value_error ex_parse.
Proof. intros u e. unfold ex_parse. destruct (str_eqb _ _); congruence. Qed.
Definition ex_pl_mi : minfo := the_info ex_kind ex_heap ex_names ex_cname ex_comps.
Definition ex_all : list str := [s2l "PowerLaw.K"; s2l "BlackBody.T"; s2l "4"].
Example C126_ex : incl ex_all (map snd (mi_name ex_pl_mi)) /\
  params_titles ex_heap ex_comps ex_clat ex_plat ex_unit ex_pl_mi ex_parse ex_all =
    Ok [(s2l "PowerLaw.K", s2l "$PL$ $K$"); (s2l "BlackBody.T", s2l "$kT$"); (s2l "4", s2l "$x$")].
Proof.
  split; [|reflexivity]. intros n Hn. cbn in Hn. 
  repeat (destruct Hn as [<-|Hn]; [vm_compute; tauto|]). easy.
Qed.

(** a parameter of two components is named after one of them but shown with the unit of the other *)
Theorem C126_unit_refuted : exists kind bname cname ops h comps clat plat unit parse mi ls s u,
  session ops h comps /\ good_names bname cname comps /\ only_value_error parse /\ get_model_info kind h bname cname comps = Ok mi /\
  In s (slots_of comps) /\ In u (slots_of comps) /\ fst s <> fst u /\ unit s <> unit u /\
  params_labels h comps clat plat unit mi parse [dotted (cname (fst s)) (snd s)] = Ok ls /\
  ls = [(dotted (cname (fst s)) (snd s), s2l "$" ++ clat (fst s) ++ s2l "$ $" ++ s2l "K" ++ s2l "$" ++ "010"%char :: s2l "[$\mathrm{" ++ unit u ++ s2l "}$]")].
Proof.
  exists ex_kind, ex_names, ex_cname, ex_ops, ex_heap, ex_comps, ex_clat, ex_plat, ex_unit, ex_parse, ex_pl_mi.
  eexists. exists (1, K), (2, K). split; [exact ex_session|]. split; [exact ex_good_names|]. split; [exact ex_parse_ok|]. split; [reflexivity|].
  split; [cbn; tauto|]. split; [cbn; tauto|]. split; [cbn; congruence|]. split; [cbn; congruence|]. split; [reflexivity|]. reflexivity.
Qed.
Print Assumptions C126_unit_refuted.
