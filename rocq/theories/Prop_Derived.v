(** C118: attributes and LaTeX labels of composite parameters. *)
From Coq Require Import Ascii String.
From Verif Require Import Base Expr Composite Namespace HelperData HelperDataProofs Derived.
From Coq Require Import List Lia.
Import ListNotations.
Open Scope list_scope.

(** ** specification *)
(** [q] is used in [p], directly or in one of its parts *)
Inductive used (q : param) : param -> Prop :=
| used_self : used q q
| used_l id o l r : used q l -> used q (PBin id o l r)
| used_r id o l r : used q r -> used q (PBin id o l r)
| used_f id f args a : In a args -> used q a -> used q (PFun id f args).
(** one id belongs to one parameter *)
Definition coherent (p : param) : Prop := forall q q', used q p -> used q' p -> pid q = pid q' -> q = q'.
(** braces are balanced *)
Inductive balanced : list tex -> Prop :=
| bal_nil : balanced []
| bal_tok t l : balanced l -> balanced (T t :: l)
| bal_group a b : balanced a -> balanced b -> balanced (OpenB :: a ++ CloseB :: b).
(** every [^] is followed by its exponent in braces *)
Definition raised (l : list tex) : Prop := forall pre post, l = pre ++ T TPow :: post -> exists a b, balanced a /\ post = OpenB :: a ++ CloseB :: b.
(** what is printed: braces are not *)
Definition shown (l : list tex) : list tok := flat_map (fun x => match x with T t => [t] | _ => [] end) l.

(** ** operators *)
Theorem C118_operators : forall id o l r,
  (forall p, operate id o l r = Ok p <-> exists a b, l = OParam a /\ r = OParam b /\ p = PBin id o a b) /\
  (l = OOther \/ r = OOther -> operate id o l r = Err TypeError).
Proof.
  intros id o l r. split.
  - intros p. destruct l as [a|], r as [b|]; cbn [operate]; split; intros H; try discriminate; try (destruct H as (a' & b' & H1 & H2 & ->); congruence).
    exists a, b. split; [reflexivity|]. split; [reflexivity|]. congruence.
  - intros [-> | ->]; [reflexivity|]. destruct l; reflexivity.
Qed.
Print Assumptions C118_operators.

(** ** default, fixed, log *)
Lemma has_interval_leaves {V} (at_ : nat -> attr V) p : has_interval at_ p = true <-> exists i, In i (leaves p) /\ is_interval (at_ i) = true.
Proof.
  induction p as [id|id o l r IHl IHr|id f args IH] using param_ind'; cbn [has_interval leaves].
  - split; [intros H; exists id; split; [now left|exact H]|intros (i & [<-|[]] & H); exact H].
  - rewrite Bool.orb_true_iff, IHl, IHr. split.
    + intros [(i & A & B)|(i & A & B)]; exists i; split; try exact B; apply in_or_app; auto.
    + intros (i & A & B). apply in_app_or in A as [A|A]; [left|right]; now exists i.
  - rewrite existsb_exists. rewrite Forall_forall in IH. split.
    + intros (a & Ia & H). apply (IH a Ia) in H as (i & A & B). exists i. split; [|exact B]. apply in_flat_map. now exists a.
    + intros (i & A & B). apply in_flat_map in A as (a & Ia & A). exists a. split; [exact Ia|]. apply (IH a Ia). now exists i.
Qed.
Theorem C118_interval : forall V (at_ : nat -> attr V) p, has_interval at_ p = true <-> exists i, In i (leaves p) /\ is_interval (at_ i) = true.
Proof. intros V at_ p. apply has_interval_leaves. Qed.
Print Assumptions C118_interval.
(** the default is the value at the defaults of its base parameters, and there is none if one of them is an interval *)
Theorem C118_default : forall V (A : alg V) (at_ : nat -> attr V) (d : nat -> V) p,
  (forall i, In i (leaves p) -> a_default (at_ i) = Number (d i)) -> default A at_ p = Ok (pvalue A (fun _ => None) d p).
Proof.
  intros V A at_ d p. induction p as [id|id o l r IHl IHr|id f args IH] using param_ind'; intros H.
  - cbn [default is_comp andb pvalue]. rewrite (H id) by now left. reflexivity.
  - assert (HI : has_interval at_ (PBin id o l r) = false).
    { destruct (has_interval at_ (PBin id o l r)) eqn:E; [|reflexivity]. apply has_interval_leaves in E as (i & I & B). unfold is_interval in B. rewrite (H i I) in B. discriminate. }
    cbn [default is_comp andb]. rewrite HI. cbn [leaves] in H. rewrite IHl, IHr; [reflexivity| |]; intros i I; apply H, in_or_app; auto.
  - assert (HI : has_interval at_ (PFun id f args) = false).
    { destruct (has_interval at_ (PFun id f args)) eqn:E; [|reflexivity]. apply has_interval_leaves in E as (i & I & B). unfold is_interval in B. rewrite (H i I) in B. discriminate. }
    cbn [default is_comp andb]. rewrite HI. cbn [pvalue].
    match goal with |- bind (?g args) _ = _ => set (go := g) end.
    assert (M : go args = Ok (map (pvalue A (fun _ => None) d) args)).
    { cbn [leaves] in H. clear HI. induction IH as [|a args Ha IH' IHa]; [reflexivity|]. cbn [map flat_map] in *. cbn [go].
      rewrite Ha by (intros i I; apply H, in_or_app; now left). cbn [bind]. rewrite IHa by (intros i I; apply H, in_or_app; now right). reflexivity. }
    rewrite M. reflexivity.
Qed.
Print Assumptions C118_default.
Theorem C118_no_default : forall V (A : alg V) (at_ : nat -> attr V) p i, is_comp p = true -> In i (leaves p) -> is_interval (at_ i) = true -> default A at_ p = Err RuntimeError.
Proof.
  intros V A at_ p i C I B. assert (H : has_interval at_ p = true) by (apply has_interval_leaves; now exists i).
  destruct p; [discriminate| |]; cbn [default is_comp andb]; now rewrite H.
Qed.
Print Assumptions C118_no_default.
Lemma all_base_spec h p : all_base h p = true <-> forall i, In i (leaves p) -> h i = true.
Proof.
  induction p as [id|id o l r IHl IHr|id f args IH] using param_ind'; cbn [all_base leaves].
  - split; [intros H i [<-|[]]; exact H|intros H; apply H; now left].
  - rewrite Bool.andb_true_iff, IHl, IHr. split; [intros (A & B) i I; apply in_app_or in I as [I|I]; auto|intros H; split; intros i I; apply H, in_or_app; auto].
  - rewrite forallb_forall. rewrite Forall_forall in IH. split.
    + intros H i I. apply in_flat_map in I as (a & Ia & I). exact (proj1 (IH a Ia) (H a Ia) i I).
    + intros H a Ia. apply (IH a Ia). intros i I. apply H, in_flat_map. now exists a.
Qed.
Theorem C118_fixed_log : forall V (at_ : nat -> attr V) p,
  (fixeds at_ p = true <-> forall i, In i (leaves p) -> a_fixed (at_ i) = true) /\ (logs at_ p = true <-> forall i, In i (leaves p) -> a_log (at_ i) = true).
Proof. intros V at_ p. split; apply all_base_spec. Qed.
Print Assumptions C118_fixed_log.

(** ** description *)
Lemma putN_in {A} (d : list (nat * A)) k v x w : NoDup (map fst d) -> (In (x, w) (putN d k v) <-> (x = k /\ w = v) \/ (x <> k /\ In (x, w) d)).
Proof.
  induction d as [|[k' v'] d IH]; intros N; cbn [putN].
  - split; [intros [E|[]]; injection E as -> ->; auto|intros [(-> & ->)|(_ & [])]; now left].
  - cbn [map fst] in N. inversion N as [|? ? N1 N2]; subst. destruct (Nat.eqb_spec k' k) as [->|Ne].
    + split.
      * intros [E|I]; [injection E as -> ->; auto|]. right. split; [|now right]. intros ->. apply N1, in_map_iff. now exists (k, w).
      * intros [(-> & ->)|(Nx & [E|I])]; [now left|congruence|now right].
    + split.
      * intros [E|I]; [injection E as -> ->; right; split; [exact Ne|now left]|]. apply (IH N2) in I as [I|(Nx & I)]; [now left|right; split; [exact Nx|now right]].
      * intros [(-> & ->)|(Nx & [E|I])]; [right; apply (IH N2); now left|now left|right; apply (IH N2); right; split; assumption].
Qed.
Lemma putN_nodup {A} (d : list (nat * A)) k v : NoDup (map fst d) -> NoDup (map fst (putN d k v)).
Proof.
  induction d as [|[k' v'] d IH]; intros N; cbn [putN]; [repeat constructor; intros []|]. cbn [map fst] in N. inversion N as [|? ? N1 N2]; subst.
  destruct (Nat.eqb_spec k' k) as [->|Ne]; [exact N|]. cbn [map fst]. constructor; [|now apply IH]. intros I. apply in_map_iff in I as ([x w] & E & I). cbn [fst] in E. subst x.
  apply (putN_in d k v k' w N2) in I as [(E & _)|(_ & I)]; [congruence|]. apply N1, in_map_iff. now exists (k', w).
Qed.
Lemma merge_spec {A} (e : list (nat * A)) : forall d, NoDup (map fst d) -> NoDup (map fst e) ->
  NoDup (map fst (merge d e)) /\ forall x w, In (x, w) (merge d e) <-> In (x, w) e \/ (~ In x (map fst e) /\ In (x, w) d).
Proof.
  induction e as [|[k v] e IH]; intros d Nd Ne; [split; [exact Nd|]; intros x w; cbn; tauto|].
  cbn [map fst] in Ne. inversion Ne as [|? ? N1 N2]; subst. unfold merge. cbn [fold_left fst snd]. fold (merge (putN d k v) e).
  destruct (IH (putN d k v) (putN_nodup d k v Nd) N2) as (H1 & H2). split; [exact H1|]. intros x w. rewrite H2, (putN_in d k v x w Nd). cbn [map fst In]. split.
  - intros [I|(Nx & [(-> & ->)|(Nk & I)])]; [left; now right|left; now left|right; split; [|exact I]]. intros [E|I']; [now apply Nk|now apply Nx].
  - intros [[E|I]|(Nx & I)]; [injection E as -> ->; right; split; [exact N1|now left]|now left|right]. split; [intros I'; apply Nx; now right|right; split; [|exact I]]. intros ->. apply Nx. now left.
Qed.
(** every parameter used has one entry, its own *)
Theorem C118_infos : forall V (at_ : nat -> attr V) p, coherent p -> NoDup (map fst (infos at_ p)) /\
  forall i e, In (i, e) (infos at_ p) <-> exists q, used q p /\ pid q = i /\
    e = {| i_comp := is_comp q; i_int := has_interval at_ q; i_fixed := fixeds at_ q; i_log := logs at_ q |}.
Proof.
  intros V at_ p. induction p as [id|id o l r IHl IHr|id f args IH] using param_ind'; intros C.
  - split; [repeat constructor; intros []|]. intros i e. cbn [infos]. split.
    + intros [E|[]]. injection E as <- <-. exists (PBase id). split; [constructor|]. split; reflexivity.
    + intros (q & U & <- & ->). inversion U; subst. now left.
  - destruct IHl as (Nl & Hl). { intros q q' U U'. apply C; now apply used_l. }
    destruct IHr as (Nr & Hr). { intros q q' U U'. apply C; now apply used_r. }
    cbn [infos]. set (p := PBin id o l r) in *.
    destruct (merge_spec (infos at_ l) [(id, own at_ p)]) as (N1 & H1); [repeat constructor; intros []|exact Nl|].
    destruct (merge_spec (infos at_ r) (merge [(id, own at_ p)] (infos at_ l)) N1 Nr) as (N2 & H2). split; [exact N2|]. intros i e. rewrite H2, H1. split.
    + intros [I|(_ & [I|(_ & [E|[]])])].
      * apply Hr in I as (q & U & Q). exists q. split; [now apply used_r|exact Q].
      * apply Hl in I as (q & U & Q). exists q. split; [now apply used_l|exact Q].
      * injection E as <- <-. exists p. split; [constructor|]. split; reflexivity.
    + intros (q & U & Q).
      assert (K : forall (inf : list (nat * info)) (a : param), (forall x, used x a -> used x p) -> (forall i e, In (i, e) inf <-> exists q, used q a /\ pid q = i /\ e = own at_ q) -> In i (map fst inf) -> In (i, e) inf).
      { intros inf a Ua Ha I. apply in_map_iff in I as ([i' e'] & E & I). cbn [fst] in E. subst i'. pose proof I as I'. apply Ha in I as (q' & U' & Q1 & Q2).
        assert (q' = q) by (apply C; [now apply Ua|exact U|destruct Q as (Q & _); congruence]). subst q'. destruct Q as (_ & Q). assert (Ee : e = e') by (rewrite Q, Q2; reflexivity). rewrite Ee. exact I'. }
      destruct (in_dec Nat.eq_dec i (map fst (infos at_ r))) as [Ir|Ir]; [left; apply (K _ r); auto; intros; now apply used_r|right; split; [exact Ir|]].
      destruct (in_dec Nat.eq_dec i (map fst (infos at_ l))) as [Il|Il]; [left; apply (K _ l); auto; intros; now apply used_l|right; split; [exact Il|]].
      left. inversion U as [|? ? ? ? U'|? ? ? ? U'|]; subst.
      * destruct Q as (<- & ->). reflexivity.
      * exfalso. apply Il, in_map_iff. exists (i, e). split; [reflexivity|]. apply Hl. now exists q.
      * exfalso. apply Ir, in_map_iff. exists (i, e). split; [reflexivity|]. apply Hr. now exists q.
  - cbn [infos]. set (p := PFun id f args) in *.
    assert (G : forall done rest acc, args = done ++ rest -> NoDup (map fst acc) ->
      (forall i e, In (i, e) acc <-> exists q, (q = p \/ exists a, In a done /\ used q a) /\ pid q = i /\ e = own at_ q) ->
      NoDup (map fst (fold_left (fun d a => merge d (infos at_ a)) rest acc)) /\
      forall i e, In (i, e) (fold_left (fun d a => merge d (infos at_ a)) rest acc) <-> exists q, (q = p \/ exists a, In a args /\ used q a) /\ pid q = i /\ e = own at_ q).
    { intros done rest. revert done. induction rest as [|a rest IHr]; intros done acc E N H.
      - cbn [fold_left]. rewrite app_nil_r in E. subst done. split; [exact N|exact H].
      - cbn [fold_left]. assert (Ia : In a args) by (rewrite E; apply in_or_app; right; now left).
        rewrite Forall_forall in IH. destruct (IH a Ia) as (Na & Ha). { intros q q' U U'. apply C; apply (used_f _ _ _ _ a); assumption. }
        destruct (merge_spec (infos at_ a) acc N Na) as (N1 & H1).
        apply (IHr (done ++ [a])); [now rewrite <- app_assoc|exact N1|]. intros i e. rewrite H1. split.
        + intros [I|(_ & I)].
          * apply Ha in I as (q & U & Q). exists q. split; [|exact Q]. right. exists a. split; [apply in_or_app; right; now left|exact U].
          * apply H in I as (q & [->|(b & Ib & U)] & Q); [exists p; split; [now left|exact Q]|exists q; split; [|exact Q]]. right. exists b. split; [apply in_or_app; now left|exact U].
        + intros (q & W & Q). assert (Uq : used q p).
          { destruct W as [->|(b & Ib & U)]; [constructor|]. apply (used_f _ _ _ _ b); [|exact U]. rewrite E. apply in_app_or in Ib as [Ib|[<-|[]]]; apply in_or_app; [now left|right; now left]. }
          destruct (in_dec Nat.eq_dec i (map fst (infos at_ a))) as [I|I].
          * left. apply in_map_iff in I as ([i' e'] & E' & I). cbn [fst] in E'. subst i'. pose proof I as I'. apply Ha in I as (q' & U' & Q1 & Q2).
            assert (q' = q) by (apply C; [apply (used_f _ _ _ _ a); assumption|exact Uq|destruct Q as (Q & _); congruence]). subst q'.
            destruct Q as (_ & Q). assert (Ee : e = e') by (rewrite Q, Q2; reflexivity). rewrite Ee. exact I'.
          * right. split; [exact I|]. apply H. exists q. split; [|exact Q]. destruct W as [->|(b & Ib & U)]; [now left|]. apply in_app_or in Ib as [Ib|[<-|[]]]; [right; now exists b|].
            exfalso. apply I, in_map_iff. exists (i, e). split; [reflexivity|]. apply Ha. now exists q. }
    destruct (G [] args [(id, own at_ p)] eq_refl) as (G1 & G2).
    { repeat constructor; intros []. }
    { intros i e. split; [intros [E|[]]; injection E as <- <-; exists p; split; [now left|split; reflexivity]|]. intros (q & [->|(a & [] & _)] & <- & ->). now left. }
    split; [exact G1|]. intros i e. rewrite G2. split.
    + intros (q & [->|(a & Ia & U)] & Q); [exists p; split; [constructor|exact Q]|exists q; split; [now apply (used_f _ _ _ _ a)|exact Q]].
    + intros (q & U & Q). exists q. split; [|exact Q]. inversion U as [|? ? ? ? U'|? ? ? ? U'|? ? ? a Ia U']; subst; [now left|right; now exists a].
Qed.
Print Assumptions C118_infos.

(** ** LaTeX *)
Lemma shown_app a b : shown (a ++ b) = shown a ++ shown b.
Proof. unfold shown. now rewrite flat_map_app. Qed.
Lemma shown_group l : shown (group l) = shown l.
Proof. unfold group. change (shown (OpenB :: l ++ [CloseB])) with (shown (l ++ [CloseB])). rewrite shown_app. cbn. now rewrite app_nil_r. Qed.
Lemma shown_paren b l : shown (tparen_if b l) = paren_if b (shown l).
Proof. destruct b; [|reflexivity]. cbn [tparen_if paren_if]. change (shown (T TL :: l ++ [T TR])) with (TL :: shown (l ++ [T TR])). now rewrite shown_app. Qed.
(** what is printed is the text of the name, with the LaTeX names of the parameters *)
Theorem C118_latex_text : forall bn cn p, shown (latex bn cn p) = label bn cn p.
Proof.
  intros bn cn p. induction p as [id|id o l r IHl IHr|id f args IH] using param_ind'; cbn [latex label].
  - reflexivity.
  - destruct (cn id) as [s|]; [reflexivity|]. rewrite shown_app, shown_group, shown_paren, IHl.
    change (shown (T (optok o) :: ?x)) with (optok o :: shown x). f_equal. f_equal. now rewrite shown_group, shown_paren, IHr.
  - destruct (cn id) as [s|]; [reflexivity|]. match goal with |- shown (_ :: _ :: ?g args ++ _) = _ => set (go := g) end.
    match goal with |- _ = _ :: _ :: ?g args ++ _ => set (go' := g) end.
    change (shown (T (TFun f) :: T TL :: go args ++ [T TR])) with (TFun f :: TL :: shown (go args ++ [T TR])). rewrite shown_app. cbn [shown flat_map app]. do 2 f_equal. f_equal.
    induction IH as [|a args Ha IH' IHa]; [reflexivity|]. destruct args as [|b args]; cbn [go go'].
    + now rewrite shown_paren, Ha.
    + change (shown (tparen_if (is_comp a) (latex bn cn a) ++ T TComma :: go (b :: args)) = paren_if (is_comp a) (label bn cn a) ++ TComma :: go' (b :: args)).
      rewrite shown_app, shown_paren, Ha. change (shown (T TComma :: ?x)) with (TComma :: shown x). do 2 f_equal. exact IHa.
Qed.
Print Assumptions C118_latex_text.
Lemma balanced_app a b : balanced a -> balanced b -> balanced (a ++ b).
Proof. intros A B. induction A as [|t l A IH|x y A1 IH1 A2 IH2]; [exact B|now constructor|]. cbn [app]. rewrite <- app_assoc. cbn [app]. now constructor. Qed.
Lemma balanced_group a : balanced a -> balanced (group a).
Proof. intros A. exact (bal_group a [] A bal_nil). Qed.
Lemma balanced_paren b a : balanced a -> balanced (tparen_if b a).
Proof. intros A. destruct b; [|exact A]. cbn [tparen_if]. constructor. apply balanced_app; [exact A|repeat constructor]. Qed.
Lemma raised_app a b : raised a -> raised b -> raised (a ++ b).
Proof.
  intros A B pre post E. assert (K : (exists post', a = pre ++ T TPow :: post' /\ post = post' ++ b) \/ exists pre', pre = a ++ pre' /\ b = pre' ++ T TPow :: post).
  { clear A B. revert pre E. induction a as [|x a IH]; intros pre E; [right; exists pre; auto|]. destruct pre as [|y pre]; cbn [app] in E.
    - left. injection E as -> E. exists a. auto.
    - injection E as -> E. destruct (IH pre E) as [(post' & -> & H)|(pre' & -> & H)]; [left; now exists post'|right; now exists pre']. }
  destruct K as [(post' & E1 & E2)|(pre' & E1 & E2)].
  - destruct (A _ _ E1) as (x & y & Bx & ->). exists x, (y ++ b). split; [exact Bx|]. rewrite E2. cbn [app]. now rewrite <- app_assoc.
  - exact (B _ _ E2).
Qed.
Lemma raised_no l : ~ In (T TPow) l -> raised l.
Proof. intros H pre post E. exfalso. apply H. rewrite E. apply in_or_app. right. now left. Qed.
Lemma raised_cons t l : t <> TPow -> raised l -> raised (T t :: l).
Proof. intros Nt R. apply (raised_app [T t] l); [|exact R]. apply raised_no. intros [E|[]]. congruence. Qed.
Lemma raised_group l : raised l -> raised (group l).
Proof. intros R. apply (raised_app [OpenB]); [apply raised_no; intros [E|[]]; discriminate|]. apply raised_app; [exact R|]. apply raised_no; intros [E|[]]; discriminate. Qed.
Lemma raised_paren b l : raised l -> raised (tparen_if b l).
Proof. intros R. destruct b; [|exact R]. apply raised_cons; [discriminate|]. apply raised_app; [exact R|]. apply raised_no; intros [E|[]]; discriminate. Qed.
Theorem C118_latex : forall bn cn p, balanced (latex bn cn p) /\ raised (latex bn cn p).
Proof.
  intros bn cn p. induction p as [id|id o l r (Bl & Rl) (Br & Rr)|id f args IH] using param_ind'; cbn [latex].
  - split; [repeat constructor|apply raised_no; intros [E|[]]; discriminate].
  - destruct (cn id) as [s|]; [split; [repeat constructor|apply raised_no; intros [E|[]]; discriminate]|].
    assert (Bg : balanced (tparen_if (rhs_paren o r) (latex bn cn r))) by now apply balanced_paren.
    split; [apply balanced_app; [now apply balanced_group, balanced_paren|constructor; now apply balanced_group]|].
    apply raised_app; [now apply raised_group, raised_paren|].
    intros pre post E. destruct pre as [|x pre]; cbn [app] in E.
    + injection E as _ E. exists (tparen_if (rhs_paren o r) (latex bn cn r)), []. split; [exact Bg|]. now rewrite <- E.
    + injection E as _ E. exact (raised_group _ (raised_paren _ _ Rr) _ _ E).
  - destruct (cn id) as [s|]; [split; [repeat constructor|apply raised_no; intros [E|[]]; discriminate]|].
    match goal with |- balanced (_ :: _ :: ?g args ++ _) /\ _ => set (go := g) end.
    assert (K : balanced (go args) /\ raised (go args)).
    { induction IH as [|a args (Ba & Ra) IH' IHa]; [split; [constructor|apply raised_no; intros []]|]. destruct args as [|b args]; cbn [go].
      - split; [now apply balanced_paren|now apply raised_paren].
      - destruct IHa as (B2 & R2).
        change (balanced (tparen_if (is_comp a) (latex bn cn a) ++ T TComma :: go (b :: args)) /\ raised (tparen_if (is_comp a) (latex bn cn a) ++ T TComma :: go (b :: args))).
        split; [apply balanced_app; [now apply balanced_paren|now constructor]|apply raised_app; [now apply raised_paren|apply raised_cons; [discriminate|exact R2]]]. }
    destruct K as (K1 & K2). split.
    + constructor. constructor. apply balanced_app; [exact K1|repeat constructor].
    + apply raised_cons; [discriminate|]. apply raised_cons; [discriminate|]. apply raised_app; [exact K2|]. apply raised_no; intros [E|[]]; discriminate.
Qed.
Print Assumptions C118_latex.

(** ** an example: (a + b) ^ a, where b is an interval *)
Definition ex_p : param := PBin 4 Pow (PBin 3 Expr.Add (PBase 1) (PBase 2)) (PBase 1).
Definition ex_at (i : nat) : attr nat := {| a_default := if i =? 2 then Interval 0 1 else Number i; a_log := false; a_fixed := i =? 2 |}.
Example ex_coherent : coherent ex_p.
Proof.
  assert (K : forall q, used q ex_p -> q = ex_p \/ q = PBin 3 Expr.Add (PBase 1) (PBase 2) \/ q = PBase 1 \/ q = PBase 2).
  { intros q U. unfold ex_p in U. inversion U as [|? ? ? ? U1|? ? ? ? U1|]; subst; [now left| |].
    - inversion U1 as [|? ? ? ? U2|? ? ? ? U2|]; subst; [auto| |]; inversion U2; subst; auto.
    - inversion U1; subst; auto. }
  intros q q' U U' E. apply K in U as [-> |[-> |[-> | ->]]]; apply K in U' as [-> |[-> |[-> | ->]]]; try reflexivity; discriminate.
Qed.
Example ex_infos : map fst (infos ex_at ex_p) = [4; 3; 1; 2] /\ has_interval ex_at ex_p = true /\ fixeds ex_at ex_p = false.
Proof. repeat split. Qed.
Example ex_latex : latex (fun i => if i =? 1 then "\alpha"%string else "b"%string) (fun _ => None) ex_p =
  [OpenB; T TL; OpenB; T (TName "\alpha"); CloseB; T TAdd; OpenB; T (TName "b"); CloseB; T TR; CloseB; T TPow; OpenB; T (TName "\alpha"); CloseB].
Proof. reflexivity. Qed.
