(** C107: the plots of a data set and of its response. *)
From Verif Require Import RBase Base Data Significance SignificanceProofs HelperData HelperDataProofs DataProofs DataState DataExamples DataPlots Prop_Data.
From Coq Require Import List Lia Psatz.
Open Scope list_scope.
Open Scope R_scope.

(** ** specification *)
(** bins in increasing order (they may touch, have gaps between them, or no width) *)
Definition ordered_bins (lo hi : list R) : Prop :=
  length lo = length hi /\ (forall k, (k < length lo)%nat -> nth k lo 0 <= nth k hi 0) /\
  (forall k, (S k < length lo)%nat -> nth k hi 0 <= nth (S k) lo 0).
(** noticed ranges in increasing order with something between them *)
Definition separate (ivs : list (R * R)) : Prop :=
  forall i j, (i < j < length ivs)%nat -> snd (nth i ivs (0, 0)) < fst (nth j ivs (0, 0)).
Definition noticed_bin (lo hi : list R) (ivs : list (R * R)) (k : nat) : Prop :=
  exists iv, In iv ivs /\ fst iv <= nth k lo 0 /\ nth k hi 0 <= snd iv.
(** the hatches leave the bin free, or cover it *)
Definition left_free (h : list (R * R)) (a b : R) : Prop := forall p, In p h -> forall x, a < x < b -> ~ (fst p < x < snd p).
Definition covered (h : list (R * R)) (a b : R) : Prop := exists p, In p h /\ fst p <= a /\ b <= snd p.

(** ** the hatched ranges *)
Lemma last_cons {A} (l : list A) : forall x d, last (x :: l) d = last l x.
Proof. induction l as [|y l IH]; intros x d; [reflexivity|]. change (last (x :: y :: l) d) with (last (y :: l) d). now rewrite !IH. Qed.
Lemma filter_seq P n : forall a, match filter P (seq a n) with
  | [] => forall k, (a <= k < a + n)%nat -> P k = false
  | f :: r => (a <= f)%nat /\ P f = true /\ P (last r f) = true /\ (f <= last r f < a + n)%nat /\
      forall k, (a <= k < a + n)%nat -> P k = true -> (f <= k <= last r f)%nat
  end.
Proof.
  induction n as [|n IH]; intros a; cbn [seq filter]; [intros k Hk; lia|]. specialize (IH (S a)). destruct (P a) eqn:E.
  - destruct (filter P (seq (S a) n)) as [|f r].
    + cbn [last]. split; [lia|]. split; [exact E|]. split; [exact E|]. split; [lia|]. intros k Hk Pk. destruct (Nat.eq_dec k a) as [E0|N]; [lia|]. rewrite IH in Pk by lia. discriminate.
    + destruct IH as (A & B & C & D & F). assert (L : last (f :: r) a = last r f) by apply last_cons.
      rewrite L. split; [lia|]. split; [exact E|]. split; [exact C|]. split; [lia|]. intros k Hk Pk. destruct (Nat.eq_dec k a) as [E0|N]; [lia|]. specialize (F k ltac:(lia) Pk). lia.
  - destruct (filter P (seq (S a) n)) as [|f r].
    + intros k Hk. destruct (Nat.eq_dec k a) as [E0|N]; [now subst k|]. apply IH. lia.
    + destruct IH as (A & B & C & D & F). split; [lia|]. split; [exact B|]. split; [exact C|]. split; [lia|]. intros k Hk Pk. destruct (Nat.eq_dec k a) as [E0|N]; [subst k; congruence|]. apply F; [lia|exact Pk].
Qed.
Definition bin_in (lo hi : list R) (k : nat) (iv : R * R) : Prop := fst iv <= nth k lo 0 /\ nth k hi 0 <= snd iv.
Lemma bin_in_b lo hi k iv : (Rleb (fst iv) (nth k lo 0) && Rleb (nth k hi 0) (snd iv))%bool = true <-> bin_in lo hi k iv.
Proof. rewrite andb_true_iff, !Rleb_true. reflexivity. Qed.
Lemma span_spec lo hi iv f g : span lo hi iv = Ok (f, g) ->
  (f <= g < length lo)%nat /\ bin_in lo hi f iv /\ bin_in lo hi g iv /\ forall k, (k < length lo)%nat -> bin_in lo hi k iv -> (f <= k <= g)%nat.
Proof.
  unfold span, inside_bins. intros H. pose proof (filter_seq (fun k => (Rleb (fst iv) (nth k lo 0) && Rleb (nth k hi 0) (snd iv))%bool) (length lo) 0) as S.
  destruct (filter _ _) as [|f' r]; [discriminate|]. injection H as <- <-. destruct S as (A & B & C & D & F). cbn beta in B, C. apply bin_in_b in B. apply bin_in_b in C.
  split; [lia|]. split; [exact B|]. split; [exact C|]. intros k Hk Pk. apply F; [lia|]. now apply bin_in_b.
Qed.
Lemma span_ok lo hi iv : (exists k, (k < length lo)%nat /\ bin_in lo hi k iv) <-> exists p, span lo hi iv = Ok p.
Proof.
  unfold span, inside_bins. pose proof (filter_seq (fun k => (Rleb (fst iv) (nth k lo 0) && Rleb (nth k hi 0) (snd iv))%bool) (length lo) 0) as S.
  destruct (filter _ _) as [|f r].
  - split; [|intros (p & E); discriminate]. intros (k & Hk & B). apply bin_in_b in B. specialize (S k ltac:(lia)). cbn beta in S. congruence.
  - split; [intros _; eexists; reflexivity|]. intros _. destruct S as (_ & B & _ & D & _). exists f. split; [lia|]. now apply bin_in_b.
Qed.
Lemma lo_mono lo hi : ordered_bins lo hi -> forall j i, (i < j < length lo)%nat -> nth i hi 0 <= nth j lo 0.
Proof.
  intros (L & A & B). induction j as [|j IH]; intros i H; [lia|]. specialize (B j ltac:(lia)). destruct (Nat.eq_dec i j) as [E|N]; [now subst|].
  specialize (IH i ltac:(lia)). specialize (A j ltac:(lia)). lra.
Qed.
Lemma lo_mono' lo hi : ordered_bins lo hi -> forall i j, (i <= j < length lo)%nat -> nth i lo 0 <= nth j lo 0 /\ nth i hi 0 <= nth j hi 0.
Proof.
  intros O i j H. destruct (Nat.eq_dec i j) as [E|N]; [subst; split; lra|]. pose proof (lo_mono lo hi O j i ltac:(lia)) as M. destruct O as (L & A & B).
  pose proof (A i ltac:(lia)). pose proof (A j ltac:(lia)). split; lra.
Qed.

(** the spans follow one another *)
Inductive chain : list (nat * nat) -> Prop :=
| chain1 f g : (f <= g)%nat -> chain [(f, g)]
| chainS f g f' g' r : (f <= g)%nat -> (g < f')%nat -> chain ((f', g') :: r) -> chain ((f, g) :: (f', g') :: r).
Lemma chain_first f g r : chain ((f, g) :: r) -> forall p, In p r -> (g < fst p)%nat.
Proof.
  revert f g. induction r as [|[f' g'] r IH]; intros f g C p Hp; [easy|]. inversion C as [|? ? ? ? ? A B D]; subst. destruct Hp as [<-|Hp]; [exact B|].
  specialize (IH f' g' D p Hp). assert (f' <= g')%nat by (inversion D; subst; assumption). lia.
Qed.
Lemma chain_last sp : chain sp -> forall p, In p sp -> (snd p <= snd (last sp (0, 0)))%nat /\ (fst p <= snd p)%nat.
Proof.
  induction sp as [|[f g] r IH]; intros C p Hp; [easy|]. inversion C as [? ? A|? ? f' g' r' A B D]; subst.
  - destruct Hp as [<-|[]]. cbn. lia.
  - specialize (IH D). assert (LL : last ((f, g) :: (f', g') :: r') (0, 0)%nat = last ((f', g') :: r') (0, 0)%nat) by reflexivity. rewrite LL. destruct Hp as [<-|Hp]; [|now apply IH].
    cbn [fst snd]. destruct (IH (f', g') (or_introl eq_refl)) as [Q1 Q2]. cbn [fst snd] in Q1, Q2. split; [|exact A]. etransitivity; [|exact Q1]. lia.
Qed.
(** a hatch between two spans *)
Lemma between_left lo hi l h : In h (between lo hi l) -> exists u, In u l /\ fst h = nth (snd u) hi 0.
Proof.
  induction l as [|[a b] l IH]; [intros []|]. destruct l as [|[c d] l]; [intros []|].
  cbn [between]. intros [<-|Hh]; [exists (a, b); split; [now left|reflexivity]|]. destruct (IH Hh) as (u & Hu & Eu). exists u. split; [now right|exact Eu].
Qed.
Lemma between_free lo hi sp : ordered_bins lo hi -> chain sp -> (forall p, In p sp -> (snd p < length lo)%nat) ->
  forall k q, In q sp -> (fst q <= k <= snd q)%nat -> forall h, In h (between lo hi sp) -> nth k hi 0 <= fst h \/ snd h <= nth k lo 0.
Proof.
  intros O. induction sp as [|[f g] r IH]; intros C B k q Hq Hk h Hh; [easy|]. inversion C as [? ? A|? ? f' g' r' A A2 D]; subst; [easy|].
  pose proof (B (f, g) (or_introl eq_refl)) as B0. pose proof (fun p H => B p (or_intror H)) as B'. cbn [snd] in B0. cbn [between] in Hh. destruct Hh as [<-|Hh].
  - cbn [fst snd]. destruct Hq as [<-|Hq].
    + left. cbn [fst snd] in Hk. apply (lo_mono' lo hi O). lia.
    + right. assert (f' <= fst q)%nat.
      { destruct Hq as [<-|Hq]; [cbn; lia|]. pose proof (chain_first _ _ _ D q Hq). assert (f' <= g')%nat by (inversion D; subst; assumption). lia. }
      specialize (B' q Hq). apply (lo_mono' lo hi O). lia.
  - destruct Hq as [<-|Hq]; [|apply (IH D B' k q Hq Hk h Hh)]. left. cbn [fst snd] in Hk.
    assert (exists u, In u ((f', g') :: r') /\ fst h = nth (snd u) hi 0) as (u & Hu & Eu).
    { apply (between_left lo hi ((f', g') :: r') h); exact Hh. }
    rewrite Eu. apply (lo_mono' lo hi O). specialize (B' u Hu). split; [|exact B'].
    pose proof (chain_first _ _ _ C u Hu). destruct (chain_last _ D u Hu). lia.
Qed.
Lemma between_covers lo hi sp f g : ordered_bins lo hi -> chain ((f, g) :: sp) -> (forall p, In p ((f, g) :: sp) -> (snd p < length lo)%nat) ->
  forall k, (g < k < length lo)%nat -> (forall q, In q sp -> ~ (fst q <= k <= snd q)%nat) -> (k < snd (last ((f, g) :: sp) (0, 0)))%nat ->
  covered (between lo hi ((f, g) :: sp)) (nth k lo 0) (nth k hi 0).
Proof.
  intros O. revert f g. induction sp as [|[f' g'] r IH]; intros f g C B k Hk N Lk; [cbn in Lk; lia|]. inversion C as [|? ? ? ? ? A A2 D]; subst.
  pose proof (B (f', g') (or_intror (or_introl eq_refl))) as B1. cbn [snd] in B1. assert (F : (f' <= g')%nat) by (inversion D; subst; assumption).
  destruct (Nat.lt_ge_cases k f') as [L|L].
  - exists (nth g hi 0, nth f' lo 0). split; [now left|]. cbn [fst snd]. split; apply (lo_mono lo hi O); lia.
  - assert (G : (g' < k)%nat) by (specialize (N (f', g') (or_introl eq_refl)); cbn [fst snd] in N; lia).
    destruct (IH f' g' D (fun p H => B p (or_intror H)) k ltac:(lia) (fun q H => N q (or_intror H)) Lk) as (h & Hh & E). exists h. split; [now right|exact E].
Qed.
Lemma last_nth {A} (l : list A) d : last l d = nth (length l - 1) l d.
Proof.
  induction l as [|x l IH]; [reflexivity|]. destruct l as [|y l]; [reflexivity|]. change (last (x :: y :: l) d) with (last (y :: l) d). rewrite IH. cbn [length].
  now replace (S (S (length l)) - 1)%nat with (S (S (length l) - 1)) by lia.
Qed.

Lemma spans_chain lo hi ivs sp : ordered_bins lo hi -> separate ivs -> ivs <> [] -> mapE (span lo hi) ivs = Ok sp -> chain sp /\ (forall p, In p sp -> (snd p < length lo)%nat).
Proof.
  intros O. revert sp. induction ivs as [|iv ivs IH]; intros sp S Ne H; [easy|]. cbn [mapE] in H. destruct (span lo hi iv) as [[f g]|] eqn:E1; [|discriminate]. cbn [bind] in H.
  destruct (mapE (span lo hi) ivs) as [sp'|] eqn:E2; [|discriminate]. cbn [bind] in H. injection H as <-. destruct (span_spec _ _ _ _ _ E1) as (A & B & C & D).
  destruct ivs as [|iv' ivs].
  - cbn in E2. injection E2 as <-. split; [constructor; lia|]. intros p [<-|[]]. cbn. lia.
  - assert (S' : separate (iv' :: ivs)).
    { intros i j Hij. exact (S (Datatypes.S i) (Datatypes.S j) ltac:(cbn [length] in *; lia)). }
    destruct (IH sp' S' ltac:(discriminate) eq_refl) as [C' B']. cbn [mapE] in E2. destruct (span lo hi iv') as [[f' g']|] eqn:E3; [|discriminate]. cbn [bind] in E2. destruct (mapE (span lo hi) ivs) as [sp''|] eqn:E4; [|discriminate]. cbn [bind] in E2. injection E2 as <-.
    destruct (span_spec _ _ _ _ _ E3) as (A2 & [B2 B2'] & C2 & D2). destruct C as [C C'']. pose proof (S 0%nat 1%nat ltac:(cbn [length]; lia)) as S0. cbn [nth] in S0.
    assert (G : (g < f')%nat).
    { destruct (Nat.lt_ge_cases g f') as [L|L]; [exact L|]. pose proof (lo_mono' lo hi O f' g ltac:(lia)) as [M _]. destruct O as (_ & O & _). specialize (O g ltac:(lia)). lra. }
    split; [constructor; [lia|exact G|exact C']|]. intros p [<-|Hp]; [cbn; lia|now apply B'].
Qed.
Lemma spans_noticed lo hi ivs sp k : ordered_bins lo hi -> mapE (span lo hi) ivs = Ok sp -> (k < length lo)%nat ->
  (noticed_bin lo hi ivs k <-> exists q, In q sp /\ (fst q <= k <= snd q)%nat).
Proof.
  intros O H Hk. revert sp H. induction ivs as [|iv ivs IH]; intros sp H.
  - cbn in H. injection H as <-. split; [intros (iv & [] & _)|intros (q & [] & _)].
  - cbn [mapE] in H. destruct (span lo hi iv) as [[f g]|] eqn:E1; [|discriminate]. cbn [bind] in H.
    destruct (mapE (span lo hi) ivs) as [sp'|] eqn:E2; [|discriminate]. cbn [bind] in H. injection H as <-. destruct (span_spec _ _ _ _ _ E1) as (A & [B B'] & [C C'] & D). specialize (IH sp' eq_refl). split.
    + intros (iv' & [<-|Hi] & Q); [exists (f, g); split; [now left|]; cbn [fst snd]; apply D; [exact Hk|exact Q]|].
      destruct (proj1 IH (ex_intro _ iv' (conj Hi Q))) as (q & Hq & E). exists q. split; [now right|exact E].
    + intros (q & [<-|Hq] & E).
      * cbn [fst snd] in E. exists iv. split; [now left|]. pose proof (lo_mono' lo hi O f k ltac:(lia)). pose proof (lo_mono' lo hi O k g ltac:(lia)). split; lra.
      * destruct (proj2 IH (ex_intro _ q (conj Hq E))) as (iv' & Hi & Q). exists iv'. split; [now right|exact Q].
Qed.

(** A bin inside a noticed range stays free of hatching, and every other bin is hatched from edge to edge. *)
Theorem C107_hatched : forall lo hi ivs h, ordered_bins lo hi -> separate ivs -> hatches lo hi (Some ivs) = Ok h ->
  forall k, (k < length lo)%nat -> nth k lo 0 < nth k hi 0 ->
  (noticed_bin lo hi ivs k -> left_free h (nth k lo 0) (nth k hi 0)) /\ (~ noticed_bin lo hi ivs k -> covered h (nth k lo 0) (nth k hi 0)).
Proof.
  intros lo hi ivs h O S H k Hk W. cbn [hatches] in H. unfold ignored in H. destruct (mapE (span lo hi) ivs) as [sp|] eqn:E; [|discriminate]. cbn [bind] in H.
  destruct sp as [|[f0 g0] sp]; [discriminate|]. assert (Ne : ivs <> []) by (intros ->; discriminate). destruct (spans_chain lo hi ivs _ O S Ne E) as [C B].
  pose proof (spans_noticed lo hi ivs _ k O E Hk) as N. set (all := (f0, g0) :: sp) in *. cbv zeta in H. set (gl := snd (last all (0, 0)%nat)) in *. injection H as <-.
  assert (Gl : (gl < length lo)%nat).
  { apply B. unfold all. destruct (exists_last (l := (f0, g0) :: sp) ltac:(discriminate)) as (l' & z & Ez). rewrite Ez, last_last. apply in_or_app. right. now left. }
  assert (F0 : (f0 <= g0)%nat) by (inversion C; subst; assumption). pose proof (B (f0, g0) (or_introl eq_refl)) as G0. cbn [snd] in G0.
  assert (LH : last hi 0 = nth (length lo - 1) hi 0) by (rewrite last_nth; destruct O as (-> & _); reflexivity).
  split.
  - intros Nk. apply N in Nk. destruct Nk as (q & Hq & Ek). intros p Hp x Hx [X1 X2]. apply in_app_or in Hp. destruct Hp as [Hp|Hp]; [|apply in_app_or in Hp; destruct Hp as [Hp|Hp]].
    + destruct (Rltb _ _) in Hp; [|easy]. destruct Hp as [<-|[]]. cbn [fst snd] in *. assert (f0 <= k)%nat.
      { destruct Hq as [<-|Hq]; [cbn in Ek; lia|]. pose proof (chain_first _ _ _ C q Hq). lia. }
      pose proof (lo_mono' lo hi O f0 k ltac:(lia)). lra.
    + destruct (between_free lo hi all O C B k q Hq Ek p Hp); lra.
    + destruct (Rltb _ _) in Hp; [|easy]. destruct Hp as [<-|[]]. cbn [fst snd] in *. destruct (chain_last all C q Hq) as [Q _]. fold gl in Q.
      pose proof (lo_mono' lo hi O k gl ltac:(lia)). lra.
  - intros Nk. assert (NQ : forall q, In q all -> ~ (fst q <= k <= snd q)%nat) by (intros q Hq Ek; apply Nk, N; exists q; split; assumption).
    destruct (Nat.lt_ge_cases k f0) as [L|L].
    + exists (nth 0 lo 0, nth f0 lo 0). pose proof (lo_mono' lo hi O 0 k ltac:(lia)) as [M _]. pose proof (lo_mono lo hi O f0 k ltac:(lia)) as M2. split; [|cbn [fst snd]; split; lra].
      apply in_or_app. left. rewrite (proj2 (Rltb_true _ _)) by lra. now left.
    + assert (L2 : (g0 < k)%nat) by (specialize (NQ (f0, g0) (or_introl eq_refl)); cbn [fst snd] in NQ; lia).
      destruct (Nat.lt_ge_cases k gl) as [L3|L3].
      * destruct (between_covers lo hi sp f0 g0 O C B k ltac:(lia) (fun q Hq => NQ q (or_intror Hq)) L3) as (p & Hp & Q). exists p. split; [|exact Q]. apply in_or_app. right. apply in_or_app. now left.
      * assert (L4 : (gl < k)%nat).
        { destruct (Nat.eq_dec k gl) as [E0|]; [|lia]. exfalso. unfold all in gl. destruct (exists_last (l := (f0, g0) :: sp) ltac:(discriminate)) as (l' & z & Ez).
          assert (gz : gl = snd z) by (unfold gl; rewrite Ez, last_last; reflexivity). assert (Hz : In z all) by (unfold all; rewrite Ez; apply in_or_app; right; now left).
          apply (NQ z Hz). destruct (chain_last all C z Hz). lia. }
        exists (nth gl hi 0, last hi 0). pose proof (lo_mono lo hi O k gl ltac:(lia)) as M. pose proof (lo_mono' lo hi O k (length lo - 1) ltac:(lia)) as [_ M2]. rewrite <- LH in M2. split; [|cbn [fst snd]; split; lra].
        apply in_or_app. right. apply in_or_app. right. rewrite (proj2 (Rltb_true _ _)) by lra. now left.
Qed.
Print Assumptions C107_hatched.
(** Hatching works exactly when every noticed range has a bin inside it; otherwise the plot raises IndexError. *)
Theorem C107_hatching_defined : forall lo hi ivs, ivs <> [] ->
  ((exists h, hatches lo hi (Some ivs) = Ok h) <-> forall iv, In iv ivs -> exists k, (k < length lo)%nat /\ fst iv <= nth k lo 0 /\ nth k hi 0 <= snd iv) /\
  (forall e, hatches lo hi (Some ivs) = Err e -> e = IndexError).
Proof.
  intros lo hi ivs Ne. assert (EQ : (exists sp, mapE (span lo hi) ivs = Ok sp) <-> forall iv, In iv ivs -> exists k, (k < length lo)%nat /\ fst iv <= nth k lo 0 /\ nth k hi 0 <= snd iv).
  { clear Ne. induction ivs as [|iv ivs IH]; [split; [intros _ iv []|intros _; eexists; reflexivity]|]. cbn [mapE]. split.
    - intros (sp & H). destruct (span lo hi iv) as [p|] eqn:E1; [|discriminate]. cbn [bind] in H. destruct (mapE (span lo hi) ivs) as [sp'|] eqn:E2; [|discriminate].
      intros iv' [<-|Hi]; [apply (span_ok lo hi iv); exists p; exact E1|]. apply (proj1 IH); [eexists; reflexivity|exact Hi].
    - intros H. destruct (proj1 (span_ok lo hi iv) (H iv (or_introl eq_refl))) as (p & ->). cbn [bind]. destruct (proj2 IH (fun iv' Hi => H iv' (or_intror Hi))) as (sp & ->). eexists. reflexivity. }
  assert (ER : forall l e, mapE (span lo hi) l = Err e -> e = IndexError).
  { induction l as [|iv l IH]; intros e H; [discriminate|]. cbn [mapE] in H. destruct (span lo hi iv) as [p|e'] eqn:E1; cbn [bind] in H.
    - destruct (mapE (span lo hi) l) as [sp'|e''] eqn:E2; [discriminate|]. cbn [bind] in H. injection H as <-. now apply IH.
    - injection H as <-. unfold span in E1. destruct (inside_bins lo hi iv); congruence. }
  cbn [hatches]. unfold ignored. split.
  - rewrite <- EQ. split; intros (h & H).
    + destruct (mapE (span lo hi) ivs) as [sp|]; [|discriminate]. eexists. reflexivity.
    + rewrite H. cbn [bind]. destruct h as [|[f g] h]; [|eexists; reflexivity]. destruct ivs as [|iv ivs]; [easy|]. cbn [mapE] in H. destruct (span lo hi iv); [|discriminate]. cbn [bind] in H. destruct (mapE (span lo hi) ivs); discriminate.
  - intros e H. destruct (mapE (span lo hi) ivs) as [sp|e'] eqn:E; cbn [bind] in H; [|injection H as <-; now apply (ER ivs)]. destruct sp as [|[f g] sp]; [congruence|discriminate].
Qed.
Print Assumptions C107_hatching_defined.

(** The ranges accepted by [set_erange] are separate. *)
Lemma flatten_separate er : strictly_increasing (flatten er) = true -> separate er /\ (forall q, In q er -> fst q < snd q /\ match er with e :: _ => fst e <= fst q | [] => True end).
Proof.
  induction er as [|[a b] er IH]; intros H; [split; [intros i j Hij; cbn in Hij; lia|intros q []]|]. unfold flatten in H. cbn [map concat app fst snd] in H.
  assert (AB : a < b) by (cbn [strictly_increasing] in H; apply andb_true_iff in H; now apply Rltb_true). assert (H2 : strictly_increasing (b :: flatten er) = true) by (cbn [strictly_increasing] in H; apply andb_true_iff in H; exact (proj2 H)).
  assert (H3 : strictly_increasing (flatten er) = true) by (destruct (flatten er) as [|x l] eqn:E; [reflexivity|]; cbn [strictly_increasing] in H2; apply andb_true_iff in H2; exact (proj2 H2)).
  destruct (IH H3) as [S Q]. assert (BB : forall q, In q er -> b < fst q).
  { destruct er as [|[c d] er]; [intros q []|]. intros q Hq. destruct (Q q Hq) as [_ Q1]. cbn [fst] in Q1. unfold flatten in H2. cbn [map concat app fst snd] in H2. cbn [strictly_increasing] in H2. apply andb_true_iff in H2. destruct H2 as [H2 _]. apply Rltb_true in H2. lra. }
  split.
  - intros i j Hij. destruct j as [|j]; [lia|]. destruct i as [|i]; cbn [nth fst snd].
    + apply BB. apply nth_In. cbn [length] in Hij. lia.
    + apply S. cbn [length] in Hij. lia.
  - intros q [<-|Hq]; cbn [fst snd]; [split; lra|]. specialize (BB q Hq). split; [|lra]. apply Q, Hq.
Qed.
Theorem C107_ranges : forall er ivs, check_erange er = Ok ivs -> separate ivs /\ ivs <> [].
Proof.
  intros er ivs H. unfold check_erange in H. destruct er as [|e er]; [discriminate|]. destruct (existsb _ _); [discriminate|]. set (s := sort_erange (e :: er)) in *. cbv zeta in H.
  destruct (strictly_increasing (flatten s)) eqn:E; cbn [negb] in H; [|discriminate]. assert (ivs = s) by congruence. subst ivs. split; [now apply flatten_separate|].
  unfold s, sort_erange. cbn [fold_right]. generalize (fold_right insert_range [] er). intros l. destruct l as [|y l]; cbn [insert_range]; [discriminate|]. now destruct (Rleb _ _).
Qed.
Print Assumptions C107_ranges.

(** ** the effective area *)
Lemma good_sum row : forall g, length g = length row -> rsum (zip2 Rmult row (map b2r g)) = rsum (bmask g row).
Proof.
  induction row as [|x row IH]; intros [|b g] L; try discriminate; [reflexivity|]. injection L as L. cbn [map bmask]. unfold zip2 in *. cbn [combine map]. cbn [rsum fold_right]. change (fold_right Rplus 0) with rsum in *. rewrite IH by exact L.
  destruct b; cbn [b2r]; cbn [rsum fold_right]; change (fold_right Rplus 0) with rsum; lra.
Qed.
(** the area of a photon bin: its response summed over the channels in use, and nothing when that is negative *)
Definition area (good : option (list bool)) (row : list R) : R :=
  let a := rsum (match good with Some g => bmask g row | None => row end) in if Rltb a 0 then 0 else a.
Lemma rmax_area a : Rmax a 0 = if Rltb a 0 then 0 else a.
Proof. destruct (Rltb a 0) eqn:E; [apply Rltb_true in E; apply Rmax_right; lra|apply Rltb_false in E; apply Rmax_left; lra]. Qed.
Theorem C107_area : forall r good, (forall row, In row (r_matrix r) -> length row = length (r_emin r)) ->
  match good with
  | Some g => (length g = length (r_emin r) -> eff_area r good = Ok (map (area good) (r_matrix r))) /\
              (length g <> length (r_emin r) -> eff_area r good = Err ValueError)
  | None => eff_area r good = Ok (map (area good) (r_matrix r))
  end.
Proof.
  intros r [g|] W; unfold eff_area.
  - split; intros L.
    + rewrite (proj2 (Nat.eqb_eq _ _) L). cbn [negb]. f_equal. apply map_ext_in. intros row Hr. unfold area. cbv zeta. rewrite good_sum by (rewrite L; symmetry; now apply W). apply rmax_area.
    + rewrite (proj2 (Nat.eqb_neq _ _) L). reflexivity.
  - f_equal. apply map_ext. intros row. apply rmax_area.
Qed.
Print Assumptions C107_area.
Lemma nth_combine_lt {A B} (a : list A) : forall (b : list B) i x y, (i < length a)%nat -> (i < length b)%nat -> nth i (combine a b) (x, y) = (nth i a x, nth i b y).
Proof. induction a as [|u a IH]; intros [|v b] i x y H1 H2; cbn in H1, H2; try lia. destruct i as [|i]; [reflexivity|]. cbn [combine nth]. apply IH; lia. Qed.
(** What is drawn over a photon bin is the area of the next bin; only the last bin shows its own. *)
Theorem C107_step_shifted_partial : forall r noticed good steps h, length (r_egrid r) = S (length (r_matrix r)) ->
  (forall row, In row (r_matrix r) -> length row = length (r_emin r)) ->
  plot_effective_area r noticed good = Ok (steps, h) ->
  length steps = length (r_matrix r) /\
  (forall i, (S i < length (r_matrix r))%nat -> nth i steps ((0, 0), 0) = ((nth i (r_egrid r) 0, nth (S i) (r_egrid r) 0), area good (nth (S i) (r_matrix r) []))) /\
  (forall i, (S i = length (r_matrix r))%nat -> nth i steps ((0, 0), 0) = ((nth i (r_egrid r) 0, nth (S i) (r_egrid r) 0), area good (nth i (r_matrix r) []))).
Proof.
  intros r noticed good steps h L W H. unfold plot_effective_area in H. assert (E : eff_area r good = Ok (map (area good) (r_matrix r))).
  { pose proof (C107_area r good W) as A. destruct good as [g|]; [|exact A]. destruct A as [A1 A2]. destruct (Nat.eq_dec (length g) (length (r_emin r))) as [E|N]; [now apply A1|]. rewrite (A2 N) in H. discriminate. }
  rewrite E in H. cbn [bind] in H. destruct (hatches _ _ noticed) as [h'|]; [|discriminate]. cbn [bind] in H. assert (Es : steps = step_pre (r_egrid r) (map (area good) (r_matrix r) ++ [last (map (area good) (r_matrix r)) 0])) by congruence. subst steps. clear H E h'.
  unfold step_pre. set (x := r_egrid r) in *. set (m := r_matrix r) in *. assert (LT : forall {A} (l : list A), length (tl l) = (length l - 1)%nat) by (intros A [|? ?]; cbn; lia).
  assert (NT : forall {A} (l : list A) i d, nth i (tl l) d = nth (S i) l d) by (intros A [|? ?] i d; [destruct i; reflexivity|reflexivity]).
  assert (L1 : length (combine x (tl x)) = length m) by (rewrite combine_length, LT; lia).
  assert (L2 : length (tl (map (area good) m ++ [last (map (area good) m) 0])) = length m) by (rewrite LT, app_length, map_length; cbn; lia).
  split; [rewrite combine_length, L1, L2; lia|].
  assert (P : forall i, (i < length m)%nat -> nth i (combine (combine x (tl x)) (tl (map (area good) m ++ [last (map (area good) m) 0]))) ((0, 0), 0) =
     ((nth i x 0, nth (S i) x 0), nth (S i) (map (area good) m ++ [last (map (area good) m) 0]) 0)).
  { intros i Hi. rewrite combine_nth by congruence. rewrite NT. rewrite <- (NT R x). f_equal. apply nth_combine_lt; [lia|]. rewrite LT. lia. }
  split; intros i Hi; rewrite P by lia; f_equal.
  - rewrite app_nth1 by (rewrite map_length; lia). rewrite (nth_indep _ 0 (area good [])) by (rewrite map_length; lia). apply map_nth.
  - rewrite app_nth2 by (rewrite map_length; lia). rewrite map_length, Hi, Nat.sub_diag. cbn [nth]. rewrite last_nth, map_length. replace (length m - 1)%nat with i by lia. rewrite (nth_indep _ 0 (area good [])) by (rewrite map_length; lia). apply map_nth.
Qed.
Print Assumptions C107_step_shifted_partial.
(** So the plot does not show the effective area: of two bins with areas 1 and 5 the first is drawn at 5 and the 1 is drawn nowhere. *)
Definition area_resp : response := {| r_egrid := [1; 2; 3]; r_emin := [1]; r_emax := [2]; r_matrix := [[1]; [5]]; r_fwhm := [1] |}.
Theorem C107_step_refuted : exists egrid emin emax m fw r, mk_response egrid emin emax m fw = Ok r /\
  exists steps h, plot_effective_area r None None = Ok (steps, h) /\ area None (nth 0 m []) = 1 /\
    In ((1, 2), 5) steps /\ (forall s, In s steps -> snd s = 5).
Proof.
  exists [1; 2; 3], [1], [2], [[1]; [5]], [1], area_resp. split.
  - unfold mk_response, area_resp. cbn [length Nat.eqb Nat.sub negb andb forallb Nat.leb combine existsb fst snd strictly_increasing]. rewrite (proj2 (Rltb_false 2 1)) by lra. rewrite (proj2 (Rltb_true 1 2)), (proj2 (Rltb_true 2 3)) by lra. reflexivity.
  - eexists. eexists. split; [reflexivity|]. cbn [nth area]. split; [|split].
    + unfold area. cbn [rsum fold_right]. rewrite (proj2 (Rltb_false _ _)) by lra. lra.
    + left. cbn. f_equal. rewrite Rmax_left by lra. lra.
    + cbn. intros s [<-|[<-|[]]]; cbn [snd]; rewrite Rmax_left by lra; lra.
Qed.
Print Assumptions C107_step_refuted.

(** ** the matrix *)
Definition used {A} (good : option (list bool)) (l : list A) : list A := match good with Some g => bmask g l | None => l end.
(** neighbouring channels in use that do not touch *)
Definition gap (lo hi : list R) (j : nat) : Prop := (S j < length lo)%nat /\ nth (S j) lo 0 <> nth j hi 0.

Section Inter.
Context {A : Type} (P : nat -> bool) (v : nat -> A).
Fixpoint inter (k : nat) (l : list A) : list A :=
  match l with
  | [] => []
  | x :: t => x :: match t with [] => [] | _ => (if P k then [v k] else []) ++ inter (S k) t end
  end.
Lemma np_step (ins : list (nat * A)) k x t : (forall p, In p ins -> (k < fst p)%nat) -> np_insert k ins (x :: t) = x :: np_insert (S k) ins t.
Proof.
  intros H. cbn [np_insert]. destruct ins as [|[i u] r]; [destruct t; reflexivity|]. specialize (H (i, u) (or_introl eq_refl)). cbn [fst] in H. rewrite (proj2 (Nat.eqb_neq i k)) by lia. reflexivity.
Qed.
Lemma ins_after k n p : In p (map (fun j => (S j, v j)) (filter P (seq k n))) -> (k < fst p)%nat.
Proof. intros H. apply in_map_iff in H. destruct H as (j & <- & Hj). apply filter_In in Hj. destruct Hj as [Hj _]. apply in_seq in Hj. cbn. lia. Qed.
Lemma np_inter : forall l k, np_insert k (map (fun j => (S j, v j)) (filter P (seq k (length l - 1)))) l = inter k l.
Proof.
  induction l as [|x t IH]; intros k; [reflexivity|]. destruct t as [|y t]; [reflexivity|]. rewrite np_step by (intros p; apply ins_after). cbn [inter]. f_equal.
  cbn [length Nat.sub] in *. specialize (IH (S k)). rewrite Nat.sub_0_r in IH. cbn [seq filter].
  assert (E : np_insert (S k) (map (fun j => (S j, v j)) (filter P (seq (S k) (length t)))) (y :: t) = y :: np_insert (S (S k)) (map (fun j => (S j, v j)) (filter P (seq (S k) (length t)))) t)
    by (apply np_step; intros p; apply ins_after).
  destruct (P k) eqn:Pk.
  - cbn [map]. cbn [np_insert]. rewrite Nat.eqb_refl. cbn [app]. f_equal. change (inter (S k) (y :: t)) with (inter (S k) (y :: t)). rewrite <- E. exact IH.
  - exact IH.
Qed.
End Inter.
Section Cells.
Variables (P : nat -> bool) (lo hi : nat -> R) (w : nat -> R).
Hypothesis touch : forall j, P j = false -> lo (S j) = hi j.
Fixpoint cells (k n : nat) : list ((R * R) * option R) :=
  match n with
  | O => []
  | S n' => ((lo k, hi k), Some (w k)) :: match n' with O => [] | _ => (if P k then [((hi k, lo (S k)), None)] else []) ++ cells (S k) n' end
  end.
Lemma inter_head {A} (v : nat -> A) f k n : exists r, inter P v k (map f (seq k (S n))) = f k :: r.
Proof. cbn [seq map inter]. eexists. reflexivity. Qed.
Lemma inter_SS {A} (v : nat -> A) f k n : inter P v k (map f (seq k (S (S n)))) = f k :: (if P k then [v k] else []) ++ inter P v (S k) (map f (seq (S k) (S n))).
Proof. reflexivity. Qed.
Lemma cells_SS k n : cells k (S (S n)) = ((lo k, hi k), Some (w k)) :: (if P k then [((hi k, lo (S k)), None)] else []) ++ cells (S k) (S n).
Proof. reflexivity. Qed.
Lemma cells_eq : forall n k, let g := inter P hi k (map lo (seq k (S n))) ++ [hi (k + n)%nat] in
  combine (combine g (tl g)) (inter P (fun _ => None) k (map (fun j => Some (w j)) (seq k (S n)))) = cells k (S n).
Proof.
  induction n as [|n IH]; intros k; cbv zeta.
  - cbn. now rewrite Nat.add_0_r.
  - rewrite !inter_SS, cells_SS. specialize (IH (S k)). cbv zeta in IH. replace (k + S n)%nat with (S k + n)%nat by lia.
    destruct (inter_head hi lo (S k) n) as (r & Er). rewrite Er in *. cbn [app tl] in *. destruct (P k) eqn:Pk; cbn [app combine tl]; rewrite <- IH; [reflexivity|].
    rewrite (touch k Pk). reflexivity.
Qed.
Lemma cells_in : forall n k c, In c (cells k n) <->
  (exists j, (k <= j < k + n)%nat /\ c = ((lo j, hi j), Some (w j))) \/ (exists j, (k <= j)%nat /\ (S j < k + n)%nat /\ P j = true /\ c = ((hi j, lo (S j)), None)).
Proof.
  induction n as [|n IH]; intros k c.
  - cbn. split; [easy|]. intros [(j & H & _)|(j & H1 & H2 & _)]; lia.
  - destruct n as [|n].
    + cbn. split.
      * intros [<-|[]]. left. exists k. split; [lia|reflexivity].
      * intros [(j & H & ->)|(j & H1 & H2 & _)]; [|lia]. left. now replace j with k by lia.
    + rewrite cells_SS. cbn [In]. rewrite in_app_iff, IH. split.
      * intros [<-|[H|[(j & H & ->)|(j & H1 & H2 & H3 & ->)]]].
        -- left. exists k. split; [lia|reflexivity].
        -- right. destruct (P k) eqn:Pk; [|easy]. destruct H as [<-|[]]. exists k. repeat (split; [try lia; assumption|]). reflexivity.
        -- left. exists j. split; [lia|reflexivity].
        -- right. exists j. split; [lia|]. split; [lia|]. split; [exact H3|reflexivity].
      * intros [(j & H & ->)|(j & H1 & H2 & H3 & ->)]; (destruct (Nat.eq_dec j k) as [E|N]; [subst j|]).
        -- now left.
        -- right. right. left. exists j. split; [lia|reflexivity].
        -- right. left. rewrite H3. now left.
        -- right. right. right. exists j. split; [lia|]. split; [lia|]. split; [exact H3|reflexivity].
Qed.
End Cells.
Lemma list_map {A} (l : list A) d : map (fun j => nth j l d) (seq 0 (length l)) = l.
Proof.
  induction l as [|x l IH]; [reflexivity|]. cbn [length seq map nth]. f_equal. rewrite <- seq_shift, map_map. exact IH.
Qed.
Lemma gaps_P lo hi : gaps lo hi = filter (fun j => negb (Reqb (nth (S j) lo 0 - nth j hi 0) 0)) (seq 0 (length lo - 1)).
Proof. reflexivity. Qed.
Lemma inter_last {A} P (v : nat -> A) d : forall l k, last (inter P v k l) d = last l d.
Proof.
  induction l as [|x t IH]; intros k; [reflexivity|]. destruct t as [|y t]; [reflexivity|]. specialize (IH (S k)). cbn [inter] in *. destruct (P k); cbn [app]; exact IH.
Qed.
Lemma new_emax_last lo hi : length lo = length hi -> last (new_emax lo hi) 0 = last hi 0.
Proof. intros L. unfold new_emax. rewrite gaps_P, L. rewrite (np_inter _ (fun j => nth (S j) (new_emin lo hi) 0)). apply inter_last. Qed.
Lemma Reqb_true a b : Reqb a b = true <-> a = b.
Proof. destruct (Reqb_spec a b); split; intros; congruence. Qed.
Lemma gap_P lo hi j : (S j < length lo)%nat -> (negb (Reqb (nth (S j) lo 0 - nth j hi 0) 0) = true <-> gap lo hi j).
Proof.
  intros H. rewrite negb_true_iff. unfold gap. split.
  - intros E. split; [exact H|]. intros Q. rewrite Q in E. rewrite (proj2 (Reqb_true _ _)) in E by lra. discriminate.
  - intros [_ Q]. destruct (Reqb _ _) eqn:E; [|reflexivity]. apply Reqb_true in E. exfalso. apply Q. lra.
Qed.
Lemma row_cells lo hi amin row : length lo = length hi -> length row = length lo -> lo <> [] ->
  let g := new_emin lo hi ++ [last (new_emax lo hi) 0] in
  forall c, In c (combine (combine g (tl g)) (new_row lo hi amin row)) <->
    (exists j, (j < length lo)%nat /\ c = ((nth j lo 0, nth j hi 0), Some (Rmax (nth j row 0) amin))) \/
    (exists j, gap lo hi j /\ c = ((nth j hi 0, nth (S j) lo 0), None)).
Proof.
  intros L1 L2 Ne g c. set (P := fun j => negb (Reqb (nth (S j) lo 0 - nth j hi 0) 0)). destruct (length lo) as [|n] eqn:En; [destruct lo; easy|].
  assert (E1 : new_emin lo hi = inter P (fun j => nth j hi 0) 0 (map (fun j => nth j lo 0) (seq 0 (S n)))).
  { unfold new_emin, gaps. fold P. rewrite (np_inter P (fun j => nth j hi 0) lo 0). rewrite <- En. now rewrite list_map. }
  assert (E2 : new_row lo hi amin row = inter P (fun _ => None) 0 (map (fun j => Some (Rmax (nth j row 0) amin)) (seq 0 (S n)))).
  { unfold new_row, gaps. fold P. replace (length lo) with (length (map (fun v => Some (Rmax v amin)) row)) by (rewrite map_length; lia). rewrite (np_inter P (fun _ => None)).
    f_equal. rewrite <- L2, <- (list_map row 0) at 1. now rewrite map_map. }
  assert (E3 : last (new_emax lo hi) 0 = nth (0 + n) hi 0) by (rewrite new_emax_last, last_nth by lia; f_equal; lia).
  subst g. rewrite E1, E2, E3.
  assert (T : forall j, P j = false -> nth (S j) lo 0 = nth j hi 0) by (intros j Pj; unfold P in Pj; apply negb_false_iff, Reqb_true in Pj; lra).
  pose proof (cells_eq P (fun j => nth j lo 0) (fun j => nth j hi 0) (fun j => Rmax (nth j row 0) amin) T n 0) as CE. cbv zeta in CE. rewrite CE. clear CE.
  rewrite cells_in. split; (intros [(j & H & ->)|(j & H)]; [left; exists j; split; [lia|reflexivity]|right; exists j]).
  - destruct H as (H1 & H2 & H3 & ->). split; [|reflexivity]. apply gap_P; [lia|exact H3].
  - destruct H as (G & ->). pose proof G as [G1 _]. split; [lia|]. split; [lia|]. split; [|reflexivity]. apply gap_P; assumption.
Qed.
Lemma bmask_len {A B} (g : list bool) : forall (a : list A) (b : list B), length a = length b -> length (bmask g a) = length (bmask g b).
Proof. induction g as [|x g IH]; intros [|u a] [|v b] L; try discriminate; [reflexivity|reflexivity|reflexivity|]. injection L as L. cbn [bmask]. destruct x; cbn [length]; now rewrite (IH a b L). Qed.
(** the lowest level that is drawn: nothing below zero, and with a logarithmic scale nothing below 1e-5 of the largest entry in use *)
Definition drawn_floor (rows : list (list R)) (log : bool) (a : R) : Prop :=
  if log then exists m, In m (concat rows) /\ (forall x, In x (concat rows) -> x <= m) /\ a = m * 1e-5 else a = 0.
(** Every channel in use is drawn over its own energies with its own entries, wherever the channel energies have gaps, and nothing else
    is drawn but the gaps, left blank. *)
Theorem C107_matrix : forall r noticed good log rows h, length (r_emin r) = length (r_emax r) -> r_matrix r <> [] ->
  (forall row, In row (r_matrix r) -> length row = length (r_emin r)) ->
  plot_matrix r noticed good log = Ok (rows, h) ->
  let lo := used good (r_emin r) in let hi := used good (r_emax r) in
  exists a, drawn_floor (map (used good) (r_matrix r)) log a /\ length rows = length (r_matrix r) /\
  forall i, (i < length (r_matrix r))%nat -> forall c, In c (nth i rows []) <->
    (exists j, (j < length lo)%nat /\ c = ((nth j lo 0, nth j hi 0), Some (Rmax (nth j (used good (nth i (r_matrix r) [])) 0) a))) \/
    (exists j, gap lo hi j /\ c = ((nth j hi 0, nth (S j) lo 0), None)).
Proof.
  intros r noticed good log rows h L Nm W H lo hi. unfold plot_matrix in H. set (M := map (used good) (r_matrix r)) in *.
  assert (E : (match good with None => Ok (r_emin r, r_emax r, r_matrix r)
        | Some g => if negb (length g =? length (r_emin r))%nat then Err ValueError else Ok (bmask g (r_emin r), bmask g (r_emax r), map (bmask g) (r_matrix r)) end) = Ok (lo, hi, M)).
  { destruct good as [g|]; [|unfold lo, hi, M; cbn [used]; rewrite map_id; reflexivity]. destruct (negb _) in *; [discriminate|]. reflexivity. }
  rewrite E in H. cbn [bind] in H. destruct (Nat.eqb_spec (length lo) 0) as [|N0]; [discriminate|]. cbv zeta in H. destruct (hatches _ _ _) as [h'|]; [|discriminate]. cbn [bind] in H.
  set (a := if log then mat_max M * 1e-5 else 0) in *. set (g := new_emin lo hi ++ [last (new_emax lo hi) 0]) in *.
  assert (Er : rows = map (fun row => combine (combine g (tl g)) (new_row lo hi a row)) M) by congruence. subst rows. clear H E h'.
  assert (LL : length lo = length hi) by (unfold lo, hi, used; destruct good; [now apply bmask_len|exact L]).
  assert (LR : forall row, In row (r_matrix r) -> length (used good row) = length lo) by (intros row Hr; unfold lo, used; destruct good; [apply bmask_len|]; now apply W).
  exists a. split; [|split].
  - unfold drawn_floor, a. destruct log; [|reflexivity]. exists (mat_max M). unfold mat_max. destruct (concat M) as [|x l] eqn:EM.
    + exfalso. destruct (r_matrix r) as [|row rest]; [easy|]. unfold M in EM. cbn [map concat] in EM. specialize (LR row (or_introl eq_refl)). destruct (used good row); [cbn in LR; lia|discriminate].
    + destruct (lmax_spec (x :: l) ltac:(discriminate)) as [A B]. split; [exact A|]. split; [exact B|reflexivity].
  - rewrite map_length. unfold M. apply map_length.
  - intros i Hi c. unfold M. rewrite map_map. rewrite (nth_indep _ [] (combine (combine g (tl g)) (new_row lo hi a (used good [])))) by (rewrite map_length; exact Hi).
    rewrite (map_nth (fun row => combine (combine g (tl g)) (new_row lo hi a (used good row))) (r_matrix r) [] i).
    apply (row_cells lo hi a (used good (nth i (r_matrix r) [])) LL); [apply LR; now apply nth_In|]. intros E0. rewrite E0 in N0. easy.
Qed.
Print Assumptions C107_matrix.

(** With at most one gap the hatching of the matrix is right too. *)
Lemma np_insert1 {A} (v : A) : forall l k i, (k < i)%nat -> (i < k + length l)%nat -> np_insert k [(i, v)] l = firstn (i - k) l ++ v :: skipn (i - k) l.
Proof.
  induction l as [|x t IH]; intros k i H1 H2; [cbn in H2; lia|]. cbn [np_insert]. rewrite (proj2 (Nat.eqb_neq i k)) by lia. replace (i - k)%nat with (S (i - S k)) by lia. cbn [firstn skipn app]. f_equal.
  destruct (Nat.eq_dec i (S k)) as [E|N].
  - subst i. rewrite Nat.sub_diag. cbn [firstn skipn app]. destruct t as [|y t]; [reflexivity|]. cbn [np_insert]. rewrite Nat.eqb_refl. f_equal. destruct t; reflexivity.
  - apply IH; [lia|]. cbn [length] in H2. lia.
Qed.
Lemma nth_ins (l : list R) v i k : (i <= length l)%nat -> nth k (firstn i l ++ v :: skipn i l) 0 = if (k <? i)%nat then nth k l 0 else if (k =? i)%nat then v else nth (k - 1) l 0.
Proof.
  intros H. destruct (Nat.ltb_spec k i) as [L|L].
  - rewrite app_nth1 by (rewrite firstn_length; lia). clear H. revert i L. revert k. induction l as [|x l IH]; intros k i L; [destruct i, k; reflexivity|]. destruct i as [|i]; [lia|]. destruct k as [|k]; [reflexivity|]. cbn. apply IH. lia.
  - rewrite app_nth2 by (rewrite firstn_length; lia). rewrite firstn_length, Nat.min_l by lia. destruct (Nat.eqb_spec k i) as [E|N]; [subst; now rewrite Nat.sub_diag|].
    replace (k - i)%nat with (S (k - i - 1)) by lia. cbn [nth]. replace (k - 1)%nat with (i + (k - i - 1))%nat by lia. generalize (k - i - 1)%nat. intros m. clear. revert i. induction l as [|x l IH]; intros i; [destruct i, m; reflexivity|]. destruct i as [|i]; [reflexivity|]. cbn. apply IH.
Qed.
Theorem C107_matrix_hatched : forall lo hi ivs h, ordered_bins lo hi -> separate ivs ->
  (forall i j, gap lo hi i -> gap lo hi j -> i = j) ->
  hatches (new_emin lo hi) (new_emax lo hi) (Some ivs) = Ok h ->
  forall k, (k < length lo)%nat -> nth k lo 0 < nth k hi 0 ->
  (noticed_bin lo hi ivs k -> left_free h (nth k lo 0) (nth k hi 0)) /\ (~ noticed_bin lo hi ivs k -> covered h (nth k lo 0) (nth k hi 0)).
Proof.
  intros lo hi ivs h O S G H k Hk W. pose proof O as (L & O1 & O2).
  assert (GI : forall j, In j (gaps lo hi) -> gap lo hi j).
  { intros j Hj. apply filter_In in Hj. destruct Hj as [Hj Pj]. apply in_seq in Hj. apply gap_P; [lia|exact Pj]. }
  assert (GN : NoDup (gaps lo hi)) by (unfold gaps; apply NoDup_filter, seq_NoDup).
  destruct (gaps lo hi) as [|i gs] eqn:Eg.
  - assert (E1 : new_emin lo hi = lo) by (unfold new_emin; rewrite Eg; cbn [map]; destruct lo; reflexivity).
    assert (E2 : new_emax lo hi = hi) by (unfold new_emax; rewrite Eg; cbn [map]; destruct hi; reflexivity).
    rewrite E1, E2 in H. exact (C107_hatched lo hi ivs h O S H k Hk W).
  - assert (gs = []).
    { destruct gs as [|j gs]; [reflexivity|]. exfalso. inversion GN as [|? ? N _]; subst. apply N. left. apply G; [apply GI; right; now left|apply GI; now left]. }
    subst gs. destruct (GI i (or_introl eq_refl)) as [Gi Gd].
    assert (E1 : new_emin lo hi = firstn (Datatypes.S i) lo ++ nth i hi 0 :: skipn (Datatypes.S i) lo).
    { unfold new_emin. rewrite Eg. cbn [map]. rewrite np_insert1 by lia. now rewrite Nat.sub_0_r. }
    assert (V : nth (Datatypes.S i) (new_emin lo hi) 0 = nth i hi 0).
    { rewrite E1, nth_ins by lia. rewrite (proj2 (Nat.ltb_ge _ _)) by lia. now rewrite Nat.eqb_refl. }
    assert (E2 : new_emax lo hi = firstn (Datatypes.S i) hi ++ nth i hi 0 :: skipn (Datatypes.S i) hi).
    { unfold new_emax. rewrite Eg. cbn [map]. rewrite V. rewrite np_insert1 by lia. now rewrite Nat.sub_0_r. }
    assert (LL : length (new_emin lo hi) = Datatypes.S (length lo)) by (rewrite E1, app_length; cbn [length]; rewrite firstn_length, skipn_length; lia).
    assert (LH : length (new_emax lo hi) = Datatypes.S (length lo)) by (rewrite E2, app_length; cbn [length]; rewrite firstn_length, skipn_length; lia).
    assert (NL : forall m, nth m (new_emin lo hi) 0 = if (m <? Datatypes.S i)%nat then nth m lo 0 else if (m =? Datatypes.S i)%nat then nth i hi 0 else nth (m - 1) lo 0) by (intros m; rewrite E1; apply nth_ins; lia).
    assert (NH : forall m, nth m (new_emax lo hi) 0 = if (m <? Datatypes.S i)%nat then nth m hi 0 else if (m =? Datatypes.S i)%nat then nth i hi 0 else nth (m - 1) hi 0) by (intros m; rewrite E2; apply nth_ins; lia).
    assert (O' : ordered_bins (new_emin lo hi) (new_emax lo hi)).
    { split; [congruence|]. rewrite LL. split; intros m Hm; rewrite NL, NH.
      - destruct (Nat.ltb_spec m (Datatypes.S i)); [apply O1; lia|]. destruct (Nat.eqb_spec m (Datatypes.S i)); [lra|]. apply O1. lia.
      - destruct (Nat.ltb_spec m (Datatypes.S i)) as [A|A]; destruct (Nat.ltb_spec (Datatypes.S m) (Datatypes.S i)) as [B|B]; try lia.
        + apply O2. lia.
        + rewrite (proj2 (Nat.eqb_eq (Datatypes.S m) (Datatypes.S i))) by lia. replace m with i by lia. lra.
        + rewrite (proj2 (Nat.eqb_neq (Datatypes.S m) (Datatypes.S i))) by lia. cbn [Nat.sub]. rewrite Nat.sub_0_r. destruct (Nat.eqb_spec m (Datatypes.S i)) as [->|N].
          * apply O2. lia.
          * replace m with (Datatypes.S (m - 1)) at 2 by lia. apply O2. lia. }
    set (k' := if (k <? Datatypes.S i)%nat then k else Datatypes.S k).
    assert (K1 : nth k' (new_emin lo hi) 0 = nth k lo 0 /\ nth k' (new_emax lo hi) 0 = nth k hi 0 /\ (k' < length (new_emin lo hi))%nat).
    { rewrite NL, NH, LL. unfold k'. destruct (Nat.ltb_spec k (Datatypes.S i)) as [A|A].
      - rewrite (proj2 (Nat.ltb_lt _ _)) by lia. repeat split; lia.
      - rewrite (proj2 (Nat.ltb_ge (Datatypes.S k) _)) by lia. rewrite (proj2 (Nat.eqb_neq (Datatypes.S k) _)) by lia. cbn [Nat.sub]. rewrite Nat.sub_0_r. split; [reflexivity|]. split; [reflexivity|lia]. }
    destruct K1 as (K1 & K2 & K3). pose proof (C107_hatched _ _ ivs h O' S H k' K3) as R. rewrite K1, K2 in R. specialize (R W).
    assert (NB : noticed_bin (new_emin lo hi) (new_emax lo hi) ivs k' <-> noticed_bin lo hi ivs k) by (unfold noticed_bin; rewrite K1, K2; reflexivity).
    rewrite NB in R. exact R.
Qed.
Print Assumptions C107_matrix_hatched.

(** With two gaps (or two dropped channels) the hatching of the matrix covers channels that are noticed: with channels [0,1], [2,3]
    and [4,5] and the range 0..3 noticed, everything from 2 on is hatched. *)
Lemma Reqb_ne a b : a <> b -> Reqb a b = false.
Proof. destruct (Reqb_spec a b); congruence. Qed.
Ltac rdec := repeat match goal with
  | |- context [Rleb ?a ?b] => first [rewrite (proj2 (Rleb_true a b)) by lra | rewrite (proj2 (Rleb_false a b)) by lra]
  | |- context [Rltb ?a ?b] => first [rewrite (proj2 (Rltb_true a b)) by lra | rewrite (proj2 (Rltb_false a b)) by lra]
  | |- context [Reqb ?a ?b] => first [rewrite (proj2 (Reqb_true a b)) by lra | rewrite (Reqb_ne a b) by lra]
  end.
Theorem C107_matrix_hatch_refuted : exists lo hi ivs h k, ordered_bins lo hi /\ separate ivs /\ (forall j, (j < length lo)%nat -> nth j lo 0 < nth j hi 0) /\
  hatches (new_emin lo hi) (new_emax lo hi) (Some ivs) = Ok h /\ (k < length lo)%nat /\ noticed_bin lo hi ivs k /\ covered h (nth k lo 0) (nth k hi 0).
Proof.
  exists [0; 2; 4], [1; 3; 5], [(0, 3)], [(2, 5)], 1%nat. split; [|split; [|split; [|split; [|split; [|split]]]]].
  - split; [reflexivity|]. split; intros [|[|[|k]]] Hk; cbn in *; try lia; lra.
  - intros i j H. cbn in H. lia.
  - intros [|[|[|k]]] Hk; cbn in *; try lia; lra.
  - assert (Eg : gaps [0; 2; 4] [1; 3; 5] = [0; 1]%nat) by (unfold gaps; cbn [length Nat.sub seq filter nth]; rdec; reflexivity).
    assert (E1 : new_emin [0; 2; 4] [1; 3; 5] = [0; 1; 2; 3; 4]) by (unfold new_emin; rewrite Eg; reflexivity).
    assert (E2 : new_emax [0; 2; 4] [1; 3; 5] = [1; 1; 3; 2; 5]) by (unfold new_emax; rewrite E1, Eg; reflexivity).
    rewrite E1, E2. cbn [hatches]. unfold ignored, span, inside_bins. cbn [mapE length seq filter nth fst snd]. rdec. cbn [andb bind last fst snd nth between]. rdec. reflexivity.
  - cbn. lia.
  - exists (0, 3). split; [now left|]. cbn. split; lra.
  - exists (2, 5). split; [now left|]. cbn. split; lra.
Qed.
Print Assumptions C107_matrix_hatch_refuted.
(** A noticed range that falls inside one photon bin makes the plot of the effective area fail. *)
Example C107_narrow_range : hatches [1; 2] [2; 3] (Some [(1.2, 1.8)]) = Err IndexError.
Proof. cbn [hatches]. unfold ignored, span, inside_bins. cbn [mapE length seq filter nth fst snd]. rdec. reflexivity. Qed.
(** four bins, one gap, two noticed ranges *)
Example C107_hatched_example : ordered_bins [0; 1; 3; 4] [1; 2; 4; 5] /\ separate [(0, 1); (3, 4)] /\
  (forall i j, gap [0; 1; 3; 4] [1; 2; 4; 5] i -> gap [0; 1; 3; 4] [1; 2; 4; 5] j -> i = j) /\
  hatches (new_emin [0; 1; 3; 4] [1; 2; 4; 5]) (new_emax [0; 1; 3; 4] [1; 2; 4; 5]) (Some [(0, 1); (3, 4)]) = Ok [(1, 3); (4, 5)] /\
  check_erange [(3, 4); (0, 1)] = Ok [(0, 1); (3, 4)].
Proof.
  split; [|split; [|split; [|split]]].
  - split; [reflexivity|]. split; intros [|[|[|[|k]]]] Hk; cbn in *; try lia; lra.
  - intros [|[|i]] [|[|j]] H; cbn in *; try lia. lra.
  - assert (A : forall i, gap [0; 1; 3; 4] [1; 2; 4; 5] i -> i = 1%nat).
    { intros [|[|[|i]]] [H1 H2]; cbn in *; try lia; lra. }
    intros i j Hi Hj. rewrite (A i Hi), (A j Hj). reflexivity.
  - assert (Eg : gaps [0; 1; 3; 4] [1; 2; 4; 5] = [1]%nat) by (unfold gaps; cbn [length Nat.sub seq filter nth]; rdec; reflexivity).
    assert (E1 : new_emin [0; 1; 3; 4] [1; 2; 4; 5] = [0; 1; 2; 3; 4]) by (unfold new_emin; rewrite Eg; reflexivity).
    assert (E2 : new_emax [0; 1; 3; 4] [1; 2; 4; 5] = [1; 2; 2; 4; 5]) by (unfold new_emax; rewrite E1, Eg; reflexivity).
    rewrite E1, E2. cbn [hatches]. unfold ignored, span, inside_bins. cbn [mapE length seq filter nth fst snd]. rdec. cbn [andb bind last fst snd nth between]. rdec. reflexivity.
  - unfold check_erange. cbn [existsb fst snd]. rdec. cbn [orb sort_erange fold_right insert_range fst snd]. rdec. unfold flatten. cbn [map concat app fst snd strictly_increasing]. rdec. reflexivity.
Qed.

(** ** the spectrum *)
(** what makes the significance of a point meaningful *)
Definition well_measured (s : spectrum) (b : option spectrum) (x : exposed) (k : nat) : Prop :=
  if s_poisson s then 0 <= nth k (x_counts x) 0 /\
    match b, x_back x with
    | Some b', Some (bc, be, ratio) => 0 < nth k ratio 0 /\ (if s_poisson b' then 0 <= nth k bc 0 else 0 < nth k be 0)
    | _, _ => 0 < nth k (x_counts x) 0 -> 0 < nth k (x_errors x) 0
    end
  else 0 < nth k (x_net_errors x) 0.
Lemma nth_z (f : R -> R -> R) (a : list R) : forall b k, length a = length b -> (k < length a)%nat -> nth k (zip2 f a b) 0 = f (nth k a 0) (nth k b 0).
Proof.
  induction a as [|x a IH]; intros [|y b] k L H; cbn in L, H; try lia. destruct k as [|k]; [reflexivity|]. change (zip2 f (x :: a) (y :: b)) with (f x y :: zip2 f a b). cbn [nth]. apply IH; lia.
Qed.
(** Every point spans its channel; the total rate minus the background rate is the net count spectrum, with errors that add in
    quadrature; the significance has the sign of the net counts, and an error bar of one unless it is zero. *)
Theorem C107_spec : forall er s r b ib o ops xlog, built er s r b ib o ->
  let o' := run o ops in let x := o_exp o' in
  length (plot_spec o' xlog) = length (x_chan x) /\
  forall k p, nth_error (plot_spec o' xlog) k = Some p ->
  (xlog = true -> 0 <= nth k (x_emin x) 0 <= nth k (x_emax x) 0) ->
  pt_x p - pt_left p = nth k (x_emin x) 0 /\ pt_x p + pt_right p = nth k (x_emax x) 0 /\
  (match b, pt_back p with
   | Some _, Some (y, ye) => pt_total p - y = nth k (x_ce x) 0 /\ pt_total_err p * pt_total_err p + ye * ye = nth k (x_ce_errors x) 0 * nth k (x_ce_errors x) 0
   | None, None => pt_total p = nth k (x_ce x) 0 /\ pt_total_err p = nth k (x_ce_errors x) 0
   | _, _ => False
   end) /\
  (well_measured s b x k -> (0 < pt_sig p <-> 0 < nth k (x_net x) 0) /\ (pt_sig p = 0 <-> nth k (x_net x) 0 = 0) /\ (pt_sig p < 0 <-> nth k (x_net x) 0 < 0)) /\
  pt_sig_err p = (if Req_EM_T (pt_sig p) 0 then 0 else 1).
Proof.
  intros er s r b ib o ops xlog H o' x. pose proof (C18_noticed_channels er s r b ib o ops H) as Q. pose proof (C22_net_spectrum er s r b ib o ops H) as N. cbv zeta in Q, N. fold o' in Q, N. fold x in Q, N.
  destruct (built_inv er s r b ib o ops H) as (n & Hn & Ws & Wr & Wb & Hg & Ho). fold o' in Ho. pose proof (ok_s _ _ _ _ _ _ Ho) as Es. pose proof (ok_b _ _ _ _ _ _ Ho) as Eb.
  destruct Q as (_ & _ & Qc & Qe & _ & L1 & L2 & _ & L3 & L4 & L5 & L6 & QB). destruct N as (NB & Nce & Ncee).
  assert (Lc : length (x_counts x) = length (x_chan x)) by (rewrite Qc; apply map_length).
  assert (Le : length (x_errors x) = length (x_chan x)) by (rewrite <- (map_length sq), Qe; apply map_length).
  unfold plot_spec. fold x. rewrite Es, Eb. split; [rewrite map_length, seq_length; exact L1|]. intros k p Hp Hx.
  assert (Hk : (k < length (x_chan x))%nat).
  { rewrite <- L1, <- (seq_length (length (x_emin x)) 0), <- (map_length (spec_point s b x xlog)). apply nth_error_Some. congruence. }
  rewrite nth_error_map in Hp. destruct (nth_error (seq 0 (length (x_emin x))) k) as [k0|] eqn:Ek; [|discriminate]. cbn [option_map] in Hp. injection Hp as <-.
  assert (k0 = k).
  { apply (nth_error_nth _ _ 0%nat) in Ek. rewrite seq_nth in Ek by lia. cbn in Ek. congruence. }
  subst k0. assert (C1 : nth k (x_ce x) 0 = nth k (x_net x) 0 / ((nth k (x_emax x) 0 - nth k (x_emin x) 0) * s_exposure s)).
  { rewrite Nce. rewrite nth_z; [|rewrite zip2_length; lia|lia]. f_equal. apply (nth_z (fun hi lo => (hi - lo) * s_exposure s)); lia. }
  assert (C2 : nth k (x_ce_errors x) 0 = nth k (x_net_errors x) 0 / ((nth k (x_emax x) 0 - nth k (x_emin x) 0) * s_exposure s)).
  { rewrite Ncee. rewrite nth_z; [|rewrite zip2_length; lia|lia]. f_equal. apply (nth_z (fun hi lo => (hi - lo) * s_exposure s)); lia. }
  set (lo := nth k (x_emin x) 0) in *. set (hi := nth k (x_emax x) 0) in *.
  unfold spec_point, well_measured. cbv zeta. cbn [pt_x pt_left pt_right pt_total pt_total_err pt_back pt_sig pt_sig_err]. fold lo hi.
  assert (GM : xlog = true -> lo <= sqrt (lo * hi) <= hi).
  { intros E. specialize (Hx E). split.
    - rewrite <- (sqrt_square lo) at 1 by lra. apply sqrt_le_1_alt. nra.
    - rewrite <- (sqrt_square hi) at 2 by lra. apply sqrt_le_1_alt. nra. }
  split; [|split; [|split; [|split]]].
  - destruct xlog; [|lra]. specialize (GM eq_refl). rewrite Rabs_left1 by lra. lra.
  - destruct xlog; [|lra]. specialize (GM eq_refl). rewrite Rabs_right by lra. lra.
  - destruct b as [b'|], (x_back x) as [[[bc be] ratio]|]; try easy.
    + destruct NB as (N1 & N2 & _). destruct QB as (B1 & B2 & B3). assert (Lb : length bc = length (x_chan x)) by (rewrite B1; apply map_length). assert (Lbe : length be = length (x_chan x)) by (rewrite <- (map_length sq), B2; apply map_length).
      assert (Zn : nth k (x_net x) 0 = nth k (x_counts x) 0 - nth k ratio 0 * nth k bc 0).
      { rewrite N1. rewrite nth_z; [|rewrite zip2_length; lia|lia]. f_equal. apply (nth_z Rmult); lia. }
      assert (Ze : sq (nth k (x_net_errors x) 0) = sq (nth k (x_errors x) 0) + sq (nth k ratio 0 * nth k be 0)).
      { assert (SQ : forall l, (k < length l)%nat -> nth k (map sq l) 0 = sq (nth k l 0)) by (intros l Hl; rewrite (nth_indep _ 0 (sq 0)) by (rewrite map_length; exact Hl); apply map_nth).
        rewrite <- SQ by lia. rewrite N2. rewrite nth_z; [|rewrite !map_length, zip2_length; lia|rewrite map_length; lia]. rewrite !SQ; [|rewrite zip2_length; lia|lia]. f_equal. f_equal. apply (nth_z Rmult); lia. }
      unfold sq in Ze. rewrite C1, C2, Zn. replace ((hi - lo) * s_exposure s) with (s_exposure s * (hi - lo)) by ring. unfold Rdiv. rewrite Rmult_1_l. set (iv := / (s_exposure s * (hi - lo))). split; [ring|].
      replace (nth k (x_net_errors x) 0 * iv * (nth k (x_net_errors x) 0 * iv)) with ((nth k (x_net_errors x) 0 * nth k (x_net_errors x) 0) * (iv * iv)) by ring. rewrite Ze. ring.
    + destruct NB as (N1 & N2). rewrite C1, C2, N1, N2. replace ((hi - lo) * s_exposure s) with (s_exposure s * (hi - lo)) by ring. unfold Rdiv. split; ring.
  - assert (DV : forall a e, 0 < e -> (0 < a / e <-> 0 < a) /\ (a / e = 0 <-> a = 0) /\ (a / e < 0 <-> a < 0)).
    { intros a e He. pose proof (Rinv_0_lt_compat e He) as Hi. unfold Rdiv. split; [|split]; split; intros Q; nra. }
    intros WM. destruct (s_poisson s) eqn:Ps; [|now apply DV]. destruct WM as [W1 W2].
    destruct b as [b'|], (x_back x) as [[[bc be] ratio]|]; try easy.
    + destruct NB as (N1 & _). destruct QB as (B1 & B2 & B3). assert (Lb : length bc = length (x_chan x)) by (rewrite B1; apply map_length).
      assert (Zn : nth k (x_net x) 0 = nth k (x_counts x) 0 - nth k ratio 0 * nth k bc 0).
      { rewrite N1. rewrite nth_z; [|rewrite zip2_length; lia|lia]. f_equal. apply (nth_z Rmult); lia. }
      destruct W2 as [W2 W3]. rewrite Zn. destruct (s_poisson b').
      * destruct (lima_sign _ _ _ W1 W3 W2) as (_ & S0 & S1 & S2). rewrite S0, S1, S2. split; [|split]; split; lra.
      * destruct (gv_sign _ (nth k bc 0) _ _ W1 W3 W2) as (_ & S0 & S1 & S2). rewrite S0, S1, S2. split; [|split]; split; lra.
    + destruct NB as (N1 & N2). rewrite N1, N2. destruct (Rltb 0 (nth k (x_counts x) 0)) eqn:E.
      * apply Rltb_true in E. apply DV, W2, E.
      * apply Rltb_false in E. split; [|split]; split; lra.
  - unfold Reqb. destruct (Req_EM_T _ _); reflexivity.
Qed.
Print Assumptions C107_spec.
(** a response with a dropped channel: the three channels in use have one gap, and the plot of the observation of C18 has points *)
Example C107_matrix_example : exists rows, plot_matrix (ex_resp 3) None (Some [true; false; true; true]) false = Ok (rows, []) /\
  length (r_emin (ex_resp 3)) = length (r_emax (ex_resp 3)) /\ r_matrix (ex_resp 3) <> [] /\ (forall row, In row (r_matrix (ex_resp 3)) -> length row = length (r_emin (ex_resp 3))) /\
  gap [1; 3; 4] [2; 4; 5] 0.
Proof.
  eexists. split; [reflexivity|]. split; [reflexivity|]. split; [discriminate|]. split; [intros row [<-|[<-|[]]]; reflexivity|]. split; [cbn; lia|cbn; lra].
Qed.
Example C107_spec_example : exists o, built [(4, 5); (1, 3)] (ex_spec 7) (ex_resp 3) (Some ex_back) true o.
Proof. exact C18_ex. Qed.
