(** C96: names of models show the names of their components where the components are. *)
From Coq Require Import Ascii String.
From Verif Require Import Base Namespace NamespaceProofs RBase Expr ModelAlg Labels.
From Coq Require Import List Lia.
Open Scope list_scope.

(** ** vocabulary *)
Definition hexdigits : str := s2l "0123456789abcdef".
Definition hex (c : ascii) : Prop := In c hexdigits.
Definition contains (s k : str) : Prop := exists a b, s = a ++ k ++ b.

Lemma prefixb_spec k s : prefixb k s = true <-> exists b, s = k ++ b.
Proof.
  revert s. induction k as [|c k IH]; intros s; cbn [prefixb]; [split; [eexists; reflexivity|reflexivity]|]. destruct s as [|d s]; [split; [discriminate|intros (b & E); discriminate]|].
  destruct (ascii_dec c d) as [->|N]; [|split; [discriminate|intros (b & E); injection E as E _; congruence]]. rewrite IH. split; intros (b & E); exists b; [cbn; congruence|now injection E].
Qed.
Lemma repl_none k v s : ~ contains s k -> repl k v s 0 = s.
Proof.
  induction s as [|c s IH]; intros N; [reflexivity|]. cbn [repl]. destruct (prefixb k (c :: s)) eqn:P; [exfalso; apply prefixb_spec in P as (b & E); apply N; now exists [], b|].
  f_equal. apply IH. intros (a & b & E). apply N. exists (c :: a), b. cbn. congruence.
Qed.
Lemma repl_skip k v a s : repl k v (a ++ s) (List.length a) = repl k v s 0.
Proof. induction a as [|c a IH]; [reflexivity|]. cbn [app List.length repl]. exact IH. Qed.
Lemma repl_self k v : k <> [] -> replace k v k = v.
Proof.
  intros N. destruct k as [|c k]; [easy|]. unfold replace. cbn [repl]. assert (P : prefixb (c :: k) (c :: k) = true) by (apply prefixb_spec; exists []; now rewrite app_nil_r). rewrite P.
  replace (List.length (c :: k) - 1)%nat with (List.length k) by (cbn; lia). pose proof (repl_skip (c :: k) v k []) as E. rewrite app_nil_r in E. rewrite E. apply app_nil_r.
Qed.
(** at a character that does not occur in [k], the replacement falls apart *)
Lemma repl_cut k v c x y : k <> [] -> ~ In c k -> forall j, (j <= List.length x)%nat -> repl k v (x ++ c :: y) j = repl k v x j ++ c :: repl k v y 0.
Proof.
  intros Nk Nc. induction x as [|d x IH]; intros j Hj.
  - cbn in Hj. assert (j = 0)%nat as -> by lia. cbn [app repl]. destruct (prefixb k (c :: y)) eqn:P; [|reflexivity]. exfalso. apply prefixb_spec in P as (b & E). destruct k as [|e k]; [easy|]. injection E as -> _. apply Nc. now left.
  - cbn [app repl]. destruct j as [|j]; [|apply IH; cbn in Hj; lia].
    destruct (prefixb k (d :: x ++ c :: y)) eqn:P.
    + assert (Q : prefixb k (d :: x) = true).
      { apply prefixb_spec in P as (b & E). apply prefixb_spec. change (d :: x ++ c :: y) with ((d :: x) ++ c :: y) in E. revert E. generalize (d :: x). clear -Nc. intros l E.
        revert l E Nc. induction k as [|e k IH]; intros l E Nc; [now exists l|]. destruct l as [|f l]; [injection E as -> _; exfalso; apply Nc; now left|]. injection E as -> E. destruct (IH l E) as (b' & ->); [intros H; apply Nc; now right|]. now exists b'. }
      rewrite Q, <- app_assoc. f_equal. apply IH. apply prefixb_spec in Q as (b & E). apply (f_equal (@List.length _)) in E. rewrite app_length in E. cbn in E. lia.
    + assert (Q : prefixb k (d :: x) = false).
      { destruct (prefixb k (d :: x)) eqn:Q; [|reflexivity]. apply prefixb_spec in Q as (b & E). rewrite <- P. symmetry. apply prefixb_spec. exists (b ++ c :: y). change (d :: x ++ c :: y) with ((d :: x) ++ c :: y). rewrite E. now rewrite app_assoc. }
      rewrite Q. cbn [app]. f_equal. apply IH. lia.
Qed.

(** text in pieces: literal text and components *)
Inductive piece := Lit (s : str) | Comp (c : nat).
Definition text1 (f : nat -> str) (p : piece) : str := match p with Lit s => s | Comp c => f c end.
Definition text (f : nat -> str) (ps : list piece) : str := concat (map (text1 f) ps).
Lemma text_app f p q : text f (p ++ q) = text f p ++ text f q.
Proof. unfold text. now rewrite map_app, concat_app. Qed.
(** literal texts: begin and end with a character that is not in an id *)
Definition bounded (s : str) : Prop := exists c d m, ~ hex c /\ ~ hex d /\ (s = [c] \/ s = c :: m ++ [d]).
(** components are separated by literal text, which has no occurrence of an id *)
Inductive wf (keys : list str) : list piece -> Prop :=
| wf_nil : wf keys []
| wf_one c : wf keys [Comp c]
| wf_lit s ps : bounded s -> (forall k, In k keys -> ~ contains s k) -> wf keys ps -> wf keys (Lit s :: ps)
| wf_comp c s ps : wf keys (Lit s :: ps) -> wf keys (Comp c :: Lit s :: ps).
Definition idlike (n : nat) (k : str) : Prop := List.length k = n /\ (0 < n)%nat /\ Forall hex k.
Lemma idlike_not n k c : idlike n k -> ~ hex c -> k <> [] /\ ~ In c k.
Proof. intros (L & P & F) H. split; [destruct k; [cbn in L; lia|discriminate]|]. intros I. rewrite Forall_forall in F. auto. Qed.
Lemma repl_lit n k v s rest : idlike n k -> bounded s -> ~ contains s k -> replace k v (s ++ rest) = s ++ replace k v rest.
Proof.
  intros K (c & d & m & Hc & Hd & Hs) N. destruct (idlike_not _ _ _ K Hc) as [Nk Nc]. destruct (idlike_not _ _ _ K Hd) as [_ Nd]. unfold replace. destruct Hs as [-> | ->].
  - cbn [app]. apply (repl_cut k v c [] rest Nk Nc 0). cbn; lia.
  - change ((c :: m ++ [d]) ++ rest) with (c :: (m ++ [d]) ++ rest). rewrite <- app_assoc. cbn [app]. pose proof (repl_cut k v d (c :: m) rest Nk Nd 0 ltac:(lia)) as E. cbn [app] in E. rewrite E.
    rewrite repl_none; [cbn [app]; f_equal; rewrite <- app_assoc; reflexivity|]. intros (a & b & E'). apply N. exists a, (b ++ [d]). change (c :: m ++ [d]) with ((c :: m) ++ [d]). rewrite E'. now rewrite <- !app_assoc.
Qed.
Lemma repl_text n keys k v ps f : idlike n k -> In k keys -> wf keys ps -> replace k v (text f ps) = text (fun c => replace k v (f c)) ps.
Proof.
  intros K I W. induction W as [|c|s ps B N W IH|c s ps W IH].
  - reflexivity.
  - unfold text. cbn [map concat text1]. now rewrite !app_nil_r.
  - change (text f (Lit s :: ps)) with (s ++ text f ps). rewrite (repl_lit n) by auto. now rewrite IH.
  - change (text f (Comp c :: Lit s :: ps)) with (f c ++ text f (Lit s :: ps)). change (text (fun c => replace k v (f c)) (Comp c :: Lit s :: ps)) with (replace k v (f c) ++ text (fun c => replace k v (f c)) (Lit s :: ps)). rewrite <- IH.
    inversion W as [| |s' ps' (e & d & m & He & _ & Hs) _ _|]; subst. destruct (idlike_not _ _ _ K He) as [Nk Nc].
    assert (exists z, text f (Lit s :: ps) = e :: z) as (z & ->) by (unfold text; cbn [map concat text1]; destruct Hs as [-> | ->]; eexists; reflexivity).
    unfold replace. rewrite (repl_cut k v e (f c) z) by (assumption || lia). f_equal. symmetry. apply (repl_cut k v e [] z Nk Nc 0). cbn; lia.
Qed.

Definition good_mapping (n : nat) (mapping : list (str * str)) : Prop :=
  NoDup (map fst mapping) /\ (forall k, In k (map fst mapping) -> idlike n k) /\ (forall k v, In k (map fst mapping) -> In v (map snd mapping) -> ~ contains v k).
Lemma same_length_infix (s k : str) : List.length s = List.length k -> contains s k -> s = k.
Proof.
  intros L (a & b & E). assert (List.length a = 0 /\ List.length b = 0)%nat as [A B] by (apply (f_equal (@List.length _)) in E; rewrite !app_length in E; lia).
  destruct a, b; try discriminate. now rewrite app_nil_r in E.
Qed.
Lemma labels_text n mapping ps (id : nat -> str) (nm : nat -> str) : good_mapping n mapping -> wf (map fst mapping) ps ->
  (forall c, In (Comp c) ps -> In (id c, nm c) mapping) -> id_to_label mapping (text id ps) = text nm ps.
Proof.
  intros (Nd & K & V) W H.
  assert (G : forall done todo (f : nat -> str), mapping = done ++ todo ->
    (forall c, In (Comp c) ps -> (In (id c, nm c) done /\ f c = nm c) \/ (In (id c, nm c) todo /\ f c = id c)) -> id_to_label todo (text f ps) = text nm ps).
  { intros done todo. revert done. induction todo as [|[k v] todo IH]; intros done f E F.
    - cbn. unfold text. f_equal. apply map_ext_in. intros [s|c] Hp; [reflexivity|]. destruct (F c Hp) as [[_ X]|[[] _]]. exact X.
    - assert (Ik : In k (map fst mapping)) by (rewrite E, map_app; apply in_or_app; right; now left).
      unfold id_to_label. cbn [fold_left fst snd]. rewrite (repl_text n (map fst mapping)) by auto. apply (IH (done ++ [(k, v)])); [now rewrite <- app_assoc|]. intros c Hc.
      destruct (F c Hc) as [[I X]|[I X]].
      + left. split; [apply in_or_app; now left|]. rewrite X. apply repl_none. apply V; [exact Ik|]. rewrite E, map_app. apply in_or_app. left. apply (in_map snd) in I. exact I.
      + rewrite X. destruct I as [I|I].
        * injection I as -> ->. left. split; [apply in_or_app; right; now left|]. apply repl_self. destruct (K _ Ik) as (L & P & _). intros Z. rewrite Z in L. cbn in L. lia.
        * right. split; [exact I|]. apply repl_none. intros Co. apply same_length_infix in Co.
          -- rewrite E, map_app in Nd. apply NoDup_remove_2 in Nd. apply Nd. apply in_or_app. right. rewrite <- Co. apply (in_map fst) in I. exact I.
          -- destruct (K _ Ik) as (L & _). destruct (K (id c)) as (L' & _); [rewrite E, map_app; apply in_or_app; right; right; apply (in_map fst) in I; exact I|]. congruence. }
  apply (G [] mapping id eq_refl). intros c Hc. right. auto.
Qed.

(** the texts of models in pieces *)
Definition lit (s : string) : piece := Lit (s2l s).
Fixpoint name_pieces (m : model) : list piece :=
  match m with
  | MUni c _ | MOp c _ => [Comp c]
  | MBin MPlus l r => name_pieces l ++ lit " + " :: name_pieces r
  | MBin MTimes l r => (if is_plus l then lit "(" :: name_pieces l ++ [lit ")"] else name_pieces l) ++ lit " * " :: (if is_plus r then lit "(" :: name_pieces r ++ [lit ")"] else name_pieces r)
  | MApp c m => Comp c :: lit "(" :: name_pieces m ++ [lit ")"]
  end.
Fixpoint latex_pieces (m : model) : list piece :=
  match m with
  | MUni c _ | MOp c _ => [Comp c]
  | MBin MPlus l r => lit "{" :: latex_pieces l ++ lit "} + {" :: latex_pieces r ++ [lit "}"]
  | MBin MTimes l r => lit "{" :: (if is_plus l then lit "\left(" :: latex_pieces l ++ [lit "\right)"] else latex_pieces l) ++ lit "} \times {" :: (if is_plus r then lit "\left(" :: latex_pieces r ++ [lit "\right)"] else latex_pieces r) ++ [lit "}"]
  | MApp c m => lit "{" :: Comp c :: lit "}\left(" :: latex_pieces m ++ [lit "\right)"]
  end.
Lemma text_cons f p ps : text f (p :: ps) = text1 f p ++ text f ps.
Proof. reflexivity. Qed.
Lemma name_pieces_text f m : text f (name_pieces m) = name_text f m.
Proof.
  assert (Pp : forall (b : bool) ps, text f (if b then lit "(" :: ps ++ [lit ")"] else ps) = if b then s2l "(" ++ text f ps ++ s2l ")" else text f ps) by (intros [|] ps; [rewrite text_cons, text_app; reflexivity|reflexivity]).
  induction m as [c t|c s|[|] l IHl r IHr|c m IH]; cbn [name_pieces name_text].
  - unfold text. cbn. apply app_nil_r.
  - unfold text. cbn. apply app_nil_r.
  - rewrite text_app, text_cons, IHl, IHr. reflexivity.
  - rewrite text_app, text_cons, !Pp, IHl, IHr. reflexivity.
  - rewrite !text_cons, text_app, IH. reflexivity.
Qed.
Lemma latex_pieces_text f m : text f (latex_pieces m) = latex_text f m.
Proof.
  assert (Pp : forall (b : bool) ps, text f (if b then lit "\left(" :: ps ++ [lit "\right)"] else ps) = if b then s2l "\left(" ++ text f ps ++ s2l "\right)" else text f ps) by (intros [|] ps; [rewrite text_cons, text_app; reflexivity|reflexivity]).
  induction m as [c t|c s|[|] l IHl r IHr|c m IH]; cbn [latex_pieces latex_text].
  - unfold text. cbn. apply app_nil_r.
  - unfold text. cbn. apply app_nil_r.
  - rewrite text_cons, text_app, text_cons, text_app, IHl, IHr. reflexivity.
  - rewrite text_cons, text_app, text_cons, text_app, !Pp, IHl, IHr. reflexivity.
  - rewrite !text_cons, text_app, IH. reflexivity.
Qed.
Lemma name_pieces_comps m c : In (Comp c) (name_pieces m) -> In c (mentioned m).
Proof.
  assert (L : forall (b : bool) ps, In (Comp c) (if b then lit "(" :: ps ++ [lit ")"] else ps) -> In (Comp c) ps).
  { intros [|] ps H; [|exact H]. destruct H as [H|H]; [discriminate|]. apply in_app_or in H as [H|[H|[]]]; [exact H|discriminate]. }
  induction m as [d t|d s|[|] l IHl r IHr|d m IH]; cbn [name_pieces mentioned]; intros H.
  - destruct H as [H|[]]. injection H as ->. now left.
  - destruct H as [H|[]]. injection H as ->. now left.
  - apply in_or_app. apply in_app_or in H as [H|[H|H]]; [auto|discriminate|auto].
  - apply in_or_app. apply in_app_or in H as [H|[H|H]]; [apply L in H; auto|discriminate|apply L in H; auto].
  - destruct H as [H|[H|H]]; [injection H as ->; now left|discriminate|]. apply in_app_or in H as [H|[H|[]]]; [right; auto|discriminate].
Qed.
Lemma latex_pieces_comps m c : In (Comp c) (latex_pieces m) -> In c (mentioned m).
Proof.
  assert (L : forall (b : bool) ps, In (Comp c) (if b then lit "\left(" :: ps ++ [lit "\right)"] else ps) -> In (Comp c) ps).
  { intros [|] ps H; [|exact H]. destruct H as [H|H]; [discriminate|]. apply in_app_or in H as [H|[H|[]]]; [exact H|discriminate]. }
  induction m as [d t|d s|[|] l IHl r IHr|d m IH]; cbn [latex_pieces mentioned]; intros H.
  - destruct H as [H|[]]. injection H as ->. now left.
  - destruct H as [H|[]]. injection H as ->. now left.
  - destruct H as [H|H]; [discriminate|]. apply in_or_app. apply in_app_or in H as [H|[H|H]]; [auto|discriminate|]. apply in_app_or in H as [H|[H|[]]]; [auto|discriminate].
  - destruct H as [H|H]; [discriminate|]. apply in_or_app. apply in_app_or in H as [H|[H|H]]; [apply L in H; auto|discriminate|]. apply in_app_or in H as [H|[H|[]]]; [apply L in H; auto|discriminate].
  - destruct H as [H|[H|[H|H]]]; [discriminate|injection H as ->; now left|discriminate|]. apply in_app_or in H as [H|[H|[]]]; [right; auto|discriminate].
Qed.

(** literal texts *)
Definition hexb (c : ascii) : bool := if in_dec ascii_dec c hexdigits then true else false.
Lemma hexb_spec c : hexb c = true <-> hex c.
Proof. unfold hexb, hex. destruct (in_dec ascii_dec c hexdigits); split; intros; congruence || assumption. Qed.
Fixpoint longest (s : str) (run : nat) : nat := match s with [] => run | c :: s' => if hexb c then longest s' (S run) else Nat.max run (longest s' 0) end.
Lemma longest_run s : forall run, (run <= longest s run)%nat.
Proof. induction s as [|c s IH]; intros run; cbn [longest]; [lia|]. destruct (hexb c); [specialize (IH (S run)); lia|lia]. Qed.
Lemma longest_mono s : forall r r', (r <= r')%nat -> (longest s r <= longest s r')%nat.
Proof. induction s as [|c s IH]; intros r r' H; cbn [longest]; [exact H|]. destruct (hexb c); [apply IH; lia|lia]. Qed.
Lemma longest_app k b run : Forall hex k -> (run + List.length k <= longest (k ++ b) run)%nat.
Proof. intros F. revert run. induction F as [|c k H F IH]; intros run; cbn [app longest List.length]; [pose proof (longest_run b run); lia|]. apply hexb_spec in H. rewrite H. specialize (IH (S run)). lia. Qed.
Lemma longest_infix k s : Forall hex k -> contains s k -> (List.length k <= longest s 0)%nat.
Proof.
  intros F (a & b & ->). induction a as [|c a IH]; [apply (longest_app k b 0 F)|]. cbn [app longest]. destruct (hexb c); [|lia]. etransitivity; [exact IH|]. apply longest_mono. lia.
Qed.
Definition boundedb (s : str) : bool := match s with [] => false | c :: r => (negb (hexb c) && negb (hexb (last s c)))%bool end.
Lemma boundedb_ok s : boundedb s = true -> bounded s.
Proof.
  destruct s as [|c r]; [discriminate|]. unfold boundedb. intros H. apply Bool.andb_true_iff in H as [H1 H2]. apply Bool.negb_true_iff in H1, H2.
  assert (N : forall x, hexb x = false -> ~ hex x) by (intros x Hx Hh; apply hexb_spec in Hh; congruence).
  exists c, (last (c :: r) c), (removelast r). split; [auto|]. split; [auto|]. destruct r as [|d r]; [now left|]. right. f_equal. change (last (c :: d :: r) c) with (last (d :: r) c). now apply app_removelast_last.
Qed.

Section Wf.
Variable n : nat.
Variable keys : list str.
Hypothesis K : forall k, In k keys -> idlike n k.
Hypothesis Hn : (3 <= n)%nat.
Lemma lit_ok s ps : boundedb (s2l s) = true -> (longest (s2l s) 0 <= 2)%nat -> wf keys ps -> wf keys (lit s :: ps).
Proof.
  intros B L W. constructor; [now apply boundedb_ok| |exact W]. intros k Hk Co. destruct (K k Hk) as (Lk & _ & F). apply longest_infix in Co; [lia|exact F].
Qed.
Lemma wf_app ps : wf keys ps -> forall s qs, wf keys (Lit s :: qs) -> wf keys (ps ++ Lit s :: qs).
Proof. induction 1 as [|c|t ps B N W IH|c t ps W IH]; intros s qs Q; cbn [app]; [exact Q|now constructor|constructor; auto|constructor; apply (IH s qs Q)]. Qed.
Lemma name_wf m : wf keys (name_pieces m).
Proof.
  assert (P : forall (b : bool) ps, wf keys ps -> wf keys (if b then lit "(" :: ps ++ [lit ")"] else ps)).
  { intros [|] ps W; [|exact W]. apply lit_ok; [reflexivity|vm_compute; lia|]. apply wf_app; [exact W|]. apply lit_ok; [reflexivity|vm_compute; lia|constructor]. }
  induction m as [c t|c s|[|] l IHl r IHr|c m IH]; cbn [name_pieces]; try solve [constructor].
  - apply wf_app; [exact IHl|]. apply lit_ok; [reflexivity|vm_compute; lia|exact IHr].
  - apply wf_app; [now apply P|]. apply lit_ok; [reflexivity|vm_compute; lia|now apply P].
  - constructor. apply (P true (name_pieces m)). exact IH.
Qed.
Lemma latex_wf m : wf keys (latex_pieces m).
Proof.
  assert (P : forall (b : bool) ps, wf keys ps -> wf keys (if b then lit "\left(" :: ps ++ [lit "\right)"] else ps)).
  { intros [|] ps W; [|exact W]. apply lit_ok; [reflexivity|vm_compute; lia|]. apply wf_app; [exact W|]. apply lit_ok; [reflexivity|vm_compute; lia|constructor]. }
  induction m as [c t|c s|[|] l IHl r IHr|c m IH]; cbn [latex_pieces]; try solve [constructor].
  - apply lit_ok; [reflexivity|vm_compute; lia|]. apply wf_app; [exact IHl|]. apply lit_ok; [reflexivity|vm_compute; lia|]. apply wf_app; [exact IHr|]. apply lit_ok; [reflexivity|vm_compute; lia|constructor].
  - apply lit_ok; [reflexivity|vm_compute; lia|]. apply wf_app; [now apply P|]. apply lit_ok; [reflexivity|vm_compute; lia|]. apply wf_app; [now apply P|]. apply lit_ok; [reflexivity|vm_compute; lia|constructor].
  - apply lit_ok; [reflexivity|vm_compute; lia|]. constructor. apply lit_ok; [reflexivity|vm_compute; lia|]. apply wf_app; [exact IH|]. apply lit_ok; [reflexivity|vm_compute; lia|constructor].
Qed.
End Wf.

(** ** C96: the name of a model is the formula of its components' names, for any mapping that has all of them: ids of one length (of
    at least three digits), none of which occurs in a name *)
Definition tok_text (t : tok) : str :=
  match t with TName s | TFun s => s2l s | TAdd => s2l " + " | TMul => s2l " * " | TL => s2l "(" | TR => s2l ")" | TSub => s2l " - " | TDiv => s2l " / " | TPow => s2l "^" | TComma => s2l ", " end.
Definition written (ts : list tok) : str := concat (map tok_text ts).
Theorem C96_name : forall n mapping m (id : nat -> str) (nm : nat -> string), (3 <= n)%nat -> good_mapping n mapping ->
  (forall c, In c (mentioned m) -> In (id c, s2l (nm c)) mapping) ->
  id_to_label mapping (name_text id m) = written (mlabel nm m).
Proof.
  intros n mapping m id nm Hn G H. rewrite <- name_pieces_text. rewrite (labels_text n mapping (name_pieces m) id (fun c => s2l (nm c)) G).
  - rewrite name_pieces_text. clear. unfold written.
    assert (Pp : forall (b : bool) ts, concat (map tok_text (mparen b ts)) = if b then s2l "(" ++ concat (map tok_text ts) ++ s2l ")" else concat (map tok_text ts)).
    { intros [|] ts; [|reflexivity]. unfold mparen. cbn [map concat tok_text]. now rewrite map_app, concat_app. }
    induction m as [c t|c s|[|] l IHl r IHr|c m IH]; cbn [name_text mlabel].
    + cbn. now rewrite app_nil_r.
    + cbn. now rewrite app_nil_r.
    + rewrite map_app, concat_app. cbn [map concat tok_text]. now rewrite IHl, IHr.
    + rewrite map_app, concat_app. cbn [map concat tok_text]. rewrite !Pp. now rewrite IHl, IHr.
    + cbn [map concat tok_text]. rewrite map_app, concat_app. now rewrite IH.
  - apply (name_wf n); [apply G|exact Hn].
  - intros c Hc. apply H. now apply name_pieces_comps.
Qed.
Print Assumptions C96_name.
(** the same for the LaTeX form *)
Theorem C96_latex : forall n mapping m (id nm : nat -> str), (3 <= n)%nat -> good_mapping n mapping ->
  (forall c, In c (mentioned m) -> In (id c, nm c) mapping) -> id_to_label mapping (latex_text id m) = latex_text nm m.
Proof.
  intros n mapping m id nm Hn G H. rewrite <- latex_pieces_text. rewrite (labels_text n mapping (latex_pieces m) id nm G).
  - apply latex_pieces_text.
  - apply (latex_wf n); [apply G|exact Hn].
  - intros c Hc. apply H. now apply latex_pieces_comps.
Qed.
Print Assumptions C96_latex.
(** so the order of the components in the mapping, and further components, make no difference *)
Theorem C96_order : forall n mapping mapping' m (id : nat -> str) (nm : nat -> string), (3 <= n)%nat -> good_mapping n mapping -> good_mapping n mapping' ->
  (forall c, In c (mentioned m) -> In (id c, s2l (nm c)) mapping /\ In (id c, s2l (nm c)) mapping') ->
  id_to_label mapping (name_text id m) = id_to_label mapping' (name_text id m).
Proof. intros n mapping mapping' m id nm Hn G G' H. rewrite (C96_name n mapping m id nm), (C96_name n mapping' m id nm); auto; intros c Hc; now destruct (H c Hc). Qed.
Print Assumptions C96_order.
(** the texts of two models with the same components differ, if the models do (up to the grouping of equal operations) -- read back with the
    grammar of Expr.v: C30.  Ids of different lengths break this: the id "abc" is inside "7abc" *)
Theorem C96_lengths_refuted : exists mapping (id : nat -> str) m nm, NoDup (map fst mapping) /\ (forall c, In c (mentioned m) -> In (id c, s2l (nm c)) mapping) /\
  id_to_label mapping (name_text id m) <> written (mlabel nm m).
Proof.
  exists [(s2l "abc", s2l "PowerLaw"); (s2l "7abc", s2l "PhAbs")], (fun c => if Nat.eqb c 0 then s2l "abc" else s2l "7abc"), (MBin MTimes (MUni 1 Mmul) (MUni 0 Madd)), (fun c => if Nat.eqb c 0 then "PowerLaw" else "PhAbs")%string.
  split; [cbn; constructor; [intros [H|[]]; discriminate|constructor; [easy|constructor]]|]. split; [intros c [<-|[<-|[]]]; cbn; auto|]. vm_compute. discriminate.
Qed.
Print Assumptions C96_lengths_refuted.
Example C96_case : let mapping := [(s2l "7f01", s2l "PhAbs"); (s2l "7f02", s2l "PowerLaw"); (s2l "7f03", s2l "PowerLaw_2"); (s2l "7f04", s2l "Band")] in
  good_mapping 4 mapping /\
  id_to_label mapping (name_text (fun c => nth c [s2l "7f01"; s2l "7f02"; s2l "7f03"] []) (MBin MTimes (MUni 0 Mmul) (MBin MPlus (MUni 1 Madd) (MUni 2 Madd)))) = s2l "PhAbs * (PowerLaw + PowerLaw_2)".
Proof.
  cbv zeta. split; [|vm_compute; reflexivity]. split; [|split].
  - cbn [map fst]. repeat constructor; cbn; intros H; repeat destruct H as [H|H]; try discriminate; exact H.
  - intros k Hk. repeat (destruct Hk as [<-|Hk]; [split; [reflexivity|split; [lia|]]; repeat constructor; cbn; tauto|]). destruct Hk.
  - intros k v Hk Hv C. assert (L : (List.length k <= longest v 0)%nat). { apply longest_infix; [|exact C]. repeat (destruct Hk as [<-|Hk]; [repeat constructor; cbn; tauto|]). destruct Hk. }
    assert (List.length k = 4%nat) as E by (repeat (destruct Hk as [<-|Hk]; [reflexivity|]); destruct Hk). rewrite E in L.
    repeat (destruct Hv as [<-|Hv]; [vm_compute in L; lia|]). destruct Hv.
Qed.
