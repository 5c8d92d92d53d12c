(** C101: an observation loaded from files *)
From Coq Require Import Ascii String.
From Verif Require Import RBase Significance Data DataState DataProofs Namespace NamespaceProofs Ogip SimulateProofs DataExamples Loading.
From Coq Require Import List DecimalNat.
Open Scope list_scope.

(** ** Row specifiers: [p{r}] *)
Definition braced (p r t : str) : str := p ++ "{"%char :: r ++ "}"%char :: t.
Lemma first_line_app s t : ~ In newline s -> first_line (s ++ t) = s ++ first_line t.
Proof.
  induction s as [|c s IH]; intros H; [reflexivity|]. cbn [app first_line]. destruct (Ascii.eqb_spec c newline) as [->|]; [exfalso; apply H; now left|].
  rewrite IH; [reflexivity|]. intros H'. apply H. now right.
Qed.
Lemma first_line_in c s : In c (first_line s) -> In c s.
Proof. induction s as [|d s IH]; cbn [first_line In]; [easy|]. destruct (Ascii.eqb d newline); cbn [In]; [easy|]. intros [H|H]; auto. Qed.
Lemma match_rest_none s : ~ In "{"%char s -> match_rest s = None.
Proof.
  induction s as [|c s IH]; intros H; [reflexivity|]. cbn [match_rest]. rewrite IH; [|intros H'; apply H; now right].
  destruct (Ascii.eqb_spec c "{"%char) as [->|]; [exfalso; apply H; now left|reflexivity].
Qed.
Lemma before_last_none c s : ~ In c s -> before_last c s = None.
Proof.
  induction s as [|d s IH]; intros H; [reflexivity|]. cbn [before_last]. rewrite IH; [|intros H'; apply H; now right].
  destruct (Ascii.eqb_spec d c) as [->|]; [exfalso; apply H; now left|reflexivity].
Qed.
Lemma before_last_app c r t : ~ In c t -> before_last c (r ++ c :: t) = Some r.
Proof.
  intros H. induction r as [|d r IH]; cbn [app before_last].
  - rewrite before_last_none by assumption. destruct (Ascii.eqb_spec c c); [reflexivity|congruence].
  - now rewrite IH.
Qed.
Lemma match_rest_app p s x : match_rest s = Some x -> match_rest (p ++ s) = Some (p ++ fst x, snd x).
Proof. intros H. induction p as [|c p IH]; cbn [app match_rest]; [now destruct x|]. now rewrite IH. Qed.
Theorem C101_specifier : forall p r t, p <> [] -> r <> [] -> ~ In newline p -> ~ In newline r -> ~ In "{"%char r ->
  ~ In "{"%char t -> ~ In "}"%char t -> split_spec (braced p r t) = Some (p, r).
Proof.
  intros p r t Hp Hr Np Nr Br Bt Ct. unfold split_spec, braced.
  assert (E : first_line (p ++ "{"%char :: r ++ "}"%char :: t) = p ++ "{"%char :: r ++ "}"%char :: first_line t).
  { rewrite first_line_app by assumption. cbn [first_line]. change (Ascii.eqb "{"%char newline) with false. cbn match. f_equal. f_equal.
    rewrite first_line_app by assumption. cbn [first_line]. reflexivity. }
  rewrite E. destruct p as [|c p]; [easy|]. cbn [app].
  assert (M : match_rest ("{"%char :: r ++ "}"%char :: first_line t) = Some ([], r)).
  { cbn [match_rest]. rewrite match_rest_none.
    - change (Ascii.eqb "{" "{") with true. cbn match. unfold group2. rewrite before_last_app; [|intros H; apply Ct; now apply first_line_in].
      destruct r; [easy|reflexivity].
    - intros H. apply in_app_or in H as [H|[H|H]]; [now apply Br|discriminate|]. apply Bt. now apply first_line_in. }
  rewrite (match_rest_app p _ _ M). cbn [fst snd]. now rewrite app_nil_r.
Qed.
Print Assumptions C101_specifier.
Theorem C101_no_specifier : forall s, ~ In "{"%char s -> split_spec s = None.
Proof.
  intros s H. unfold split_spec. destruct (first_line s) as [|c r] eqn:E; [reflexivity|]. rewrite match_rest_none; [reflexivity|].
  intros H'. apply H, first_line_in. rewrite E. now right.
Qed.
Print Assumptions C101_no_specifier.
(** Whatever follows the closing brace is dropped: the file [t] of a directory called [p{r}] is not what is opened.  (The row
    number is the text in braces, so this is the file [p] of another directory.) *)
Theorem C101_braces_in_directory_refuted : exists path, (exists p r t, path = braced p r ("/"%char :: t) /\ t <> [] /\
  split_spec path = Some (p, r)).
Proof.
  exists (s2l "run{2}/spec.pha"), (s2l "run"), (s2l "2"), (s2l "spec.pha"). split; [reflexivity|]. split; [discriminate|].
  apply (C101_specifier (s2l "run") (s2l "2") (s2l "/spec.pha")); try discriminate; cbn; repeat (intros [H|H]; [discriminate|revert H]); easy.
Qed.
Print Assumptions C101_braces_in_directory_refuted.

(** ** Numbers *)
Lemma digits_uint u acc : digits (Z.of_nat acc) (uint_str u) = Some (Z.of_nat (Nat.of_uint_acc u acc)).
Proof.
  revert acc. induction u; intros acc; cbn [uint_str digits Nat.of_uint_acc]; [reflexivity| | | | | | | | | |];
  match goal with |- context [digit ?c] => let v := eval vm_compute in (digit c) in change (digit c) with v end; cbn match;
  (match goal with |- digits ?x _ = Some (Z.of_nat (Nat.of_uint_acc _ ?y)) => replace x with (Z.of_nat y); [apply IHu|] end);
  rewrite Nat.tail_mul_spec; cbn [Nat.of_uint_acc]; lia.
Qed.
Lemma nat_str_not_nil n : nat_str n <> [].
Proof. unfold nat_str. pose proof (DecimalNat.Unsigned.of_to n) as H. intros E. destruct (Nat.to_uint n) eqn:F; try discriminate. 
  assert (Z : n = 0%nat) by (rewrite <- H; reflexivity). subst n. discriminate F. Qed.
Lemma digits_nat n : digits1 (nat_str n) = Some (Z.of_nat n).
Proof.
  unfold digits1. destruct (nat_str n) eqn:E; [now apply nat_str_not_nil in E|]. rewrite <- E. unfold nat_str.
  change 0%Z with (Z.of_nat 0). rewrite digits_uint. f_equal. f_equal. apply DecimalNat.Unsigned.of_to.
Qed.
Lemma uint_chars u c : In c (uint_str u) -> In c (s2l "0123456789").
Proof. induction u; cbn [uint_str In]; [easy|..]; (intros [<-|H]; [cbn; tauto|auto]). Qed.
Lemma nat_str_no n c : ~ In c (s2l "0123456789") -> ~ In c (nat_str n).
Proof. intros H H'. now apply H, (uint_chars (Nat.to_uint n)). Qed.
Lemma int_of_nat n : int_of (nat_str n) = Some (Z.of_nat n).
Proof.
  unfold int_of. destruct (nat_str n) as [|c r] eqn:E; [now apply nat_str_not_nil in E|].
  assert (Hc : In c (s2l "0123456789")) by (apply (uint_chars (Nat.to_uint n)); fold (nat_str n); rewrite E; now left).
  destruct (Ascii.eqb_spec c "-"%char) as [->|]; [exfalso; cbn in Hc; repeat (destruct Hc as [H|Hc]; [discriminate|]); easy|].
  destruct (Ascii.eqb_spec c "+"%char) as [->|]; [exfalso; cbn in Hc; repeat (destruct Hc as [H|Hc]; [discriminate|]); easy|].
  rewrite <- E. apply digits_nat.
Qed.
Lemma int_of_neg n : int_of ("-"%char :: nat_str n) = Some (- Z.of_nat n)%Z.
Proof. cbn [int_of]. change (Ascii.eqb "-" "-") with true. cbn match. now rewrite digits_nat. Qed.

(** ** Rows of a type II file *)
Definition row_spec (p : str) (k : nat) : str := braced p (nat_str k) [].
Definition row_spec_neg (p : str) (k : nat) : str := braced p ("-"%char :: nat_str k) [].
Lemma not_digit c : In c [newline; "{"%char; "}"%char] -> ~ In c (s2l "0123456789").
Proof. intros [<-|[<-|[<-|[]]]]; cbn; intros H; repeat (destruct H as [H|H]; [discriminate|]); easy. Qed.
Lemma split_row p k : p <> [] -> ~ In newline p -> split_spec (row_spec p k) = Some (p, nat_str k).
Proof.
  intros Hp Np. apply C101_specifier; try assumption; try (intros []; fail); try apply nat_str_not_nil; apply nat_str_no, not_digit; cbn; tauto.
Qed.
Lemma split_row_neg p k : p <> [] -> ~ In newline p -> split_spec (row_spec_neg p k) = Some (p, "-"%char :: nat_str k).
Proof.
  intros Hp Np. apply C101_specifier; try assumption; try (intros []; fail); try discriminate;
  (intros [H|H]; [discriminate|revert H]; apply nat_str_no, not_digit; cbn; tauto).
Qed.
Lemma pyslice_at {A} (l : list A) k : (1 <= k <= length l)%nat -> exists w, nth_error l (k - 1) = Some w /\ pyslice (Z.of_nat k - 1) (Z.of_nat k - 1 + 1) l = [w].
Proof.
  intros H. destruct (nth_error l (k - 1)) as [w|] eqn:E; [|apply nth_error_None in E; lia]. exists w. split; [reflexivity|].
  unfold pyslice, clip_index. destruct (Z.ltb_spec (Z.of_nat k - 1) 0); [lia|]. destruct (Z.ltb_spec (Z.of_nat k - 1 + 1) 0); [lia|].
  replace (Nat.min (Z.to_nat (Z.of_nat k - 1)) (length l)) with (k - 1)%nat by lia.
  replace (Nat.min (Z.to_nat (Z.of_nat k - 1 + 1)) (length l)) with (S (k - 1)) by lia.
  unfold slice. replace (S (k - 1) - (k - 1))%nat with 1%nat by lia. clear H. revert E. generalize (k - 1)%nat. intros j. revert l.
  induction j as [|j IH]; intros [|x l] E; try discriminate; cbn in *; [now injection E as ->|]. now apply IH.
Qed.
Lemma pyslice_out {A} (l : list A) k : (k = 0 \/ length l < k)%nat -> pyslice (Z.of_nat k - 1) (Z.of_nat k - 1 + 1) l = [].
Proof.
  intros H. unfold pyslice, clip_index, slice. destruct H as [->|H].
  - cbn [Z.of_nat]. change (0 - 1 <? 0)%Z with true. change (0 - 1 + 1 <? 0)%Z with false. cbn match. change (Z.to_nat (0 - 1 + 1)) with 0%nat. now rewrite Nat.min_0_l.
  - destruct (Z.ltb_spec (Z.of_nat k - 1) 0); [lia|]. rewrite skipn_all2 by lia. now rewrite firstn_nil.
Qed.
Lemma pyslice_neg {A} (l : list A) k : (1 <= k < length l)%nat -> exists w, nth_error l (length l - k - 1) = Some w /\
  pyslice (- Z.of_nat k - 1) (- Z.of_nat k - 1 + 1) l = [w].
Proof.
  intros H. destruct (pyslice_at l (length l - k)) as (w & N & P); [lia|]. exists w. split; [assumption|]. rewrite <- P. unfold pyslice, clip_index.
  destruct (Z.ltb_spec (- Z.of_nat k - 1) 0); [|lia]. destruct (Z.ltb_spec (- Z.of_nat k - 1 + 1) 0); [|lia].
  destruct (Z.ltb_spec (Z.of_nat (length l - k) - 1) 0); [lia|]. destruct (Z.ltb_spec (Z.of_nat (length l - k) - 1 + 1) 0); [lia|].
  f_equal; lia.
Qed.

(** a file named by the column of the row, else by the keyword of the header; "none" is no file *)
Definition linked (cell keyword : option str) (v : str) : Prop :=
  exists u, (cell = Some u \/ (cell = None /\ keyword = Some u) \/ (cell = None /\ keyword = None /\ u = [])) /\
  ((In u (map s2l ["none"; "None"; "NONE"]%string) /\ v = []) \/ (~ In u (map s2l ["none"; "None"; "NONE"]%string) /\ v = u)).
Lemma linked_spec cell keyword v : v = file_field cell keyword <-> linked cell keyword v.
Proof.
  unfold file_field, linked. cbv zeta. set (u := match cell, keyword with Some v, _ => v | None, Some v => v | None, None => [] end).
  assert (U : forall u', (cell = Some u' \/ (cell = None /\ keyword = Some u') \/ (cell = None /\ keyword = None /\ u' = [])) <-> u' = u).
  { intros u'. unfold u. destruct cell as [c|]; [|destruct keyword as [k|]]; (split; [intros [X|[[X Y]|(X & Y & Z)]]; congruence|intros ->; auto]). }
  assert (D : str_in u excluded_file = true <-> In u (map s2l ["none"; "None"; "NONE"]%string)) by apply str_in_spec.
  split.
  - intros ->. exists u. split; [now apply U|]. destruct (str_in u excluded_file) eqn:E; [left; split; [now apply D|reflexivity]|right; split; [intros X; apply D in X; congruence|reflexivity]].
  - intros (u' & Hu & H). apply U in Hu as ->. destruct H as [[I ->]|[N ->]]; [apply D in I; now rewrite I|]. destruct (str_in u excluded_file) eqn:E; [exfalso; apply N; now apply D|reflexivity].
Qed.
(** the spectrum object made of one table entry *)
Definition made_of (h : hdr) (p : pha) (b r a : option str) (poisson : option bool) (o : spec_obj) : Prop :=
  read_spectrum (with_header h p) poisson = Ok (so_data o) /\ so_name o = header_name h /\ linked b (h_back h) (so_back o) /\
  linked r (h_resp h) (so_resp o) /\ linked a (h_ancr h) (so_ancr o) /\ so_class o = hduclas2 h.
Lemma obj_made h p b r a poisson o :
  bind (read_spectrum (with_header h p) poisson) (fun s =>
    Ok {| so_data := s; so_name := header_name h; so_back := file_field b (h_back h); so_resp := file_field r (h_resp h);
          so_ancr := file_field a (h_ancr h); so_class := hduclas2 h |}) = Ok o <-> made_of h p b r a poisson o.
Proof.
  unfold made_of, bind. destruct (read_spectrum _ _) as [s|e]; [|split; [discriminate|intros [? _]; discriminate]]. split.
  - intros H; injection H as <-. cbn [so_data so_name so_back so_resp so_ancr so_class]. rewrite <- !linked_spec. auto 7.
  - rewrite <- !linked_spec. intros (A & B & C & D & E & F). destruct o; cbn in *. injection A as <-. now subst.
Qed.
(** row [k], counted from 1, of the file [p]: exactly that row; any other non-negative number is refused *)
Theorem C101_row : forall e p f l k poisson, p <> [] -> ~ In newline p -> fs_spec e p = Ok f -> sf_tab f = Rows l ->
  (forall o, spectrum_init e (row_spec p k) poisson = Ok o <->
     (1 <= k)%nat /\ exists w, nth_error l (k - 1) = Some w /\ made_of (sf_hdr f) (w_pha w) (w_back w) (w_resp w) (w_ancr w) poisson o) /\
  ((k = 0 \/ length l < k)%nat -> spectrum_init e (row_spec p k) poisson = Err IndexError).
Proof.
  intros e p f l k poisson Hp Np Hf Ht. unfold spectrum_init. rewrite split_row, int_of_nat, Hf by assumption. cbn [bind].
  unfold read_file. rewrite Ht. cbn [sf_hdr]. split.
  - intros o. destruct (Nat.lt_ge_cases (length l) k) as [L|L]; [|destruct (Nat.eq_dec k 0) as [K|K]].
    + rewrite pyslice_out by now right. split; [discriminate|]. intros (_ & w & N & _).
      exfalso. rewrite (proj2 (nth_error_None l (k - 1))) in N by lia. discriminate.
    + rewrite pyslice_out by now left. split; [discriminate|]. intros (K1 & _). lia.
    + destruct (pyslice_at l k) as (w & N & ->); [lia|]. split.
      * intros H. split; [lia|]. exists w. split; [assumption|]. now apply obj_made.
      * intros (_ & w' & N' & M). rewrite N in N'. injection N' as <-. now apply obj_made.
  - intros H. now rewrite pyslice_out by assumption.
Qed.
Print Assumptions C101_row.
(** negative numbers are not refused: [p{-k}] is the row [n - k] *)
Theorem C101_negative_row_refuted : forall e p f l k poisson, p <> [] -> ~ In newline p -> fs_spec e p = Ok f -> sf_tab f = Rows l ->
  (1 <= k < length l)%nat -> spectrum_init e (row_spec_neg p k) poisson = spectrum_init e (row_spec p (length l - k)) poisson.
Proof.
  intros e p f l k poisson Hp Np Hf Ht Hk. unfold spectrum_init. rewrite split_row_neg, split_row, int_of_neg, int_of_nat, Hf by assumption. cbn [bind].
  unfold read_file. rewrite Ht. destruct (pyslice_neg l k Hk) as (w & N & ->). destruct (pyslice_at l (length l - k)) as (w' & N' & ->); [lia|].
  rewrite N in N'. now injection N' as <-.
Qed.
Print Assumptions C101_negative_row_refuted.
(** without a specifier the file must hold one spectrum, with one it must hold several *)
Theorem C101_table : forall e p f poisson o, ~ In "{"%char p -> fs_spec e p = Ok f ->
  (spectrum_init e p poisson = Ok o <-> exists q, sf_tab f = Channels q /\ made_of (sf_hdr f) q None None None poisson o /\
     (h_detchans (sf_hdr f) = None \/ h_detchans (sf_hdr f) = Some (Z.of_nat (nrows q))) /\ h_hduclas4 (sf_hdr f) <> s2l "TYPE:II").
Proof.
  intros e p f poisson o Hb Hf. unfold spectrum_init. rewrite C101_no_specifier, Hf by assumption. cbn [bind]. unfold read_file.
  destruct (sf_tab f) as [q|l] eqn:Ht; cbn [sf_hdr].
  - unfold type_i_ok. destruct (str_eqb_spec (h_hduclas4 (sf_hdr f)) (s2l "TYPE:II")) as [T|T]; cbn [negb]; [rewrite andb_false_r; split; [discriminate|now intros (? & _ & _ & _ & ?)]|].
    rewrite andb_true_r. destruct (h_detchans (sf_hdr f)) as [d|] eqn:D.
    + destruct (Z.eqb_spec d (Z.of_nat (nrows q))) as [->|N]; rewrite ?obj_made.
      * split; [intros M; exists q; auto|]. now intros (q' & H & M & _); injection H as ->.
      * split; [discriminate|]. intros (q' & H & _ & [?|E] & _); [discriminate|]. injection H as ->. now injection E as ->.
    + rewrite obj_made. split; [intros M; exists q; auto|]. now intros (q' & H & M & _); injection H as ->.
  - split; [discriminate|]. now intros (? & ? & _).
Qed.
Print Assumptions C101_table.

(** ** The name *)
Definition usable (o : option str) : Prop := exists s, o = Some s /\ ~ In (map lower_char s) [[]; s2l "none"; s2l "unknown"].
Lemma search_name_spec l : (exists pre s post, l = pre ++ Some s :: post /\ usable (Some s) /\ Forall (fun o => ~ usable o) pre /\ search_name l = s) \/
  (Forall (fun o => ~ usable o) l /\ search_name l = []).
Proof.
  induction l as [|o l IH]; [right; split; [constructor|reflexivity]|]. cbn [search_name].
  destruct (str_in (map lower_char match o with Some s => s | None => [] end) excluded_name) eqn:E; cbn [negb].
  - assert (U : ~ usable o). { intros (s & -> & N). apply N. now apply str_in_spec in E. }
    destruct IH as [(pre & s & post & -> & Us & F & Hs)|[F Hs]].
    + left. exists (o :: pre), s, post. auto.
    + right. auto.
  - left. destruct o as [s|]; [|exfalso; cbn in E; discriminate].
    exists [], s, l. split; [reflexivity|]. split; [|auto]. exists s. split; [reflexivity|]. intros H.
    apply (proj2 (str_in_spec (map lower_char s) excluded_name)) in H. rewrite E in H. discriminate.
Qed.
(** the first of DETNAM, INSTRUME, TELESCOP that is not blank, 'none' or 'unknown' in any case *)
Theorem C101_header_name : forall h, let l := [h_detnam h; h_instrume h; h_telescop h] in
  (exists pre s post, l = pre ++ Some s :: post /\ usable (Some s) /\ Forall (fun o => ~ usable o) pre /\ header_name h = s) \/
  (Forall (fun o => ~ usable o) l /\ header_name h = []).
Proof. intros h. apply search_name_spec. Qed.
Print Assumptions C101_header_name.

(** ** Arguments and header *)
Definition not_given (o : option str) : Prop := o = None \/ o = Some [].
(** the value of an argument, or that of the header *)
Definition choice (given : option str) (header x : str) : Prop :=
  x <> [] /\ (given = Some x \/ not_given given /\ header = x).
Definition nothing (given : option str) (header : str) : Prop := not_given given /\ header = [].
Lemma pick_some g h x : pick g h = Some x <-> choice g h x.
Proof.
  unfold pick, choice, not_given, truthy. destruct g as [[|c g]|]; split; intros H.
  - destruct h; [discriminate|]. injection H as <-. split; [discriminate|]. right. auto.
  - destruct H as [N [H|[_ ->]]]; [injection H as <-; easy|]. destruct x; easy.
  - injection H as <-. split; [discriminate|]. now left.
  - destruct H as [N [H|[[H|H] _]]]; [now injection H as <-|discriminate|discriminate].
  - destruct h; [discriminate|]. injection H as <-. split; [discriminate|]. right. auto.
  - destruct H as [N [H|[_ ->]]]; [discriminate|]. destruct x; easy.
Qed.
Lemma pick_none g h : pick g h = None <-> nothing g h.
Proof.
  unfold pick, nothing, not_given, truthy. destruct g as [[|c g]|]; [destruct h| |destruct h]; split; intros H; try discriminate; auto; destruct H as [[?|?] ?]; try discriminate; auto.
Qed.

Lemma group_keeps o m sc pr g : group o m sc pr = Ok g -> o_spec (fst g) = o_spec o /\ o_resp (fst g) = o_resp o /\ o_bk (fst g) = o_bk o.
Proof.
  unfold group, set_grouping, bind. destruct (group_flags o m sc pr); [|discriminate]. destruct (choose_grouping _ _ _); [|discriminate].
  destruct (expose _ _ _ _ _ _); [|discriminate]. intros H; injection H as <-. cbn. auto.
Qed.
Lemma mk_obs_keeps er s r b ib o : mk_obs er s r b ib = Ok o -> o_spec o = s /\ o_resp o = r /\ o_bk o = b.
Proof.
  unfold mk_obs, bind. destruct (negb _); [discriminate|]. destruct (negb _); [discriminate|]. destruct (negb _); [discriminate|].
  destruct (check_erange er); [|discriminate]. destruct (choose_grouping _ _ _); [|discriminate]. destruct (expose _ _ _ _ _ _); [|discriminate].
  intros H; injection H as <-. cbn. auto.
Qed.
(** A successful load: every file is the one of the argument if that is given and not empty, else the one named in the header;
    the sizes agree; the observation is the one built from the arrays read, grouped if that was asked for. *)
Definition loads (e : files) (a : args) (name : str) (o : obs) (ws : list warning) : Prop :=
  exists sp rp ap r rw b,
    spectrum_init e (a_spec a) (a_spec_poisson a) = Ok sp /\
    choice (a_name a) (so_name sp) name /\
    choice (a_resp a) (so_resp sp) rp /\
    (choice (a_ancr a) (so_ancr sp) ap \/ nothing (a_ancr a) (so_ancr sp) /\ ap = []) /\
    response_init e rp (Some ap) = Ok (r, rw) /\
    (nothing (a_back a) (so_back sp) /\ b = None \/
     exists bp bo, choice (a_back a) (so_back sp) bp /\ spectrum_init e bp (a_back_poisson a) = Ok bo /\ b = Some (so_data bo)) /\
    length (s_counts (so_data sp)) = length (r_emin r) /\
    (forall x, b = Some x -> length (s_counts x) = length (r_emin r)) /\
    ws = rw ++ (if str_eqb (so_class sp) (s2l "BKG") then [WBkg] else []) ++
         match b with Some _ => if str_eqb (so_class sp) (s2l "NET") then [WNet] else [] | None => [] end /\
    exists o0, mk_obs (a_erange a) (so_data sp) r b (a_ignore_bad a) = Ok o0 /\
      match a_group a with None => o = o0 | Some m => exists ok, group o0 m (a_scale a) (a_preserve a) = Ok (o, ok) end.
Theorem C101_load : forall e a name o ws, load e a = Ok (name, o, ws) <-> loads e a name o ws.
Proof.
  intros e a name o ws. unfold load, loads. split.
  - destruct (spectrum_init e (a_spec a) (a_spec_poisson a)) as [sp|x]; cbn [bind]; [|discriminate].
    destruct (pick (a_name a) (so_name sp)) as [nm|] eqn:En; [|discriminate]. apply pick_some in En.
    destruct (pick (a_resp a) (so_resp sp)) as [rp|] eqn:Er; [|discriminate]. apply pick_some in Er.
    set (ap := match truthy (a_ancr a) with Some f => f | None => so_ancr sp end).
    destruct (response_init e rp (Some ap)) as [[r rw]|x] eqn:Ei; cbn [bind]; [|discriminate]. cbn [fst snd].
    destruct (Nat.eqb_spec (length (s_counts (so_data sp))) (length (r_emin r))) as [L|]; cbn [negb]; [|discriminate].
    assert (A : choice (a_ancr a) (so_ancr sp) ap \/ nothing (a_ancr a) (so_ancr sp) /\ ap = []).
    { subst ap. clear. unfold choice, nothing, not_given, truthy. destruct (a_ancr a) as [[|c g]|].
      - destruct (so_ancr sp); [right; auto|left]. split; [discriminate|]. auto.
      - left. split; [discriminate|]. auto.
      - destruct (so_ancr sp); [right; auto|left]. split; [discriminate|]. auto. }
    assert (K : forall b, (if negb match b with Some x => (length (s_counts (so_data x)) =? length (r_emin r))%nat | None => true end
            then Err ValueError
            else bind (mk_obs (a_erange a) (so_data sp) r (option_map so_data b) (a_ignore_bad a)) (fun o0 =>
               match a_group a with
               | None => Ok (nm, o0, rw ++ classification sp b)
               | Some m => bind (group o0 m (a_scale a) (a_preserve a)) (fun g => Ok (nm, fst g, rw ++ classification sp b))
               end)) = Ok (name, o, ws) ->
       (nothing (a_back a) (so_back sp) /\ option_map so_data b = None \/
       exists bp bo, choice (a_back a) (so_back sp) bp /\ spectrum_init e bp (a_back_poisson a) = Ok bo /\ option_map so_data b = Some (so_data bo)) ->
       exists sp' rp' ap' r' rw' b',
    Ok sp = Ok sp' /\
    choice (a_name a) (so_name sp') name /\
    choice (a_resp a) (so_resp sp') rp' /\
    (choice (a_ancr a) (so_ancr sp') ap' \/ nothing (a_ancr a) (so_ancr sp') /\ ap' = []) /\
    response_init e rp' (Some ap') = Ok (r', rw') /\
    (nothing (a_back a) (so_back sp') /\ b' = None \/
     exists bp bo, choice (a_back a) (so_back sp') bp /\ spectrum_init e bp (a_back_poisson a) = Ok bo /\ b' = Some (so_data bo)) /\
    length (s_counts (so_data sp')) = length (r_emin r') /\
    (forall x, b' = Some x -> length (s_counts x) = length (r_emin r')) /\
    ws = rw' ++ (if str_eqb (so_class sp') (s2l "BKG") then [WBkg] else []) ++
         match b' with Some _ => if str_eqb (so_class sp') (s2l "NET") then [WNet] else [] | None => [] end /\
    exists o0, mk_obs (a_erange a) (so_data sp') r' b' (a_ignore_bad a) = Ok o0 /\
      match a_group a with None => o = o0 | Some m => exists ok, group o0 m (a_scale a) (a_preserve a) = Ok (o, ok) end).
    { intros b H B. destruct (negb _) eqn:Eb in H; [discriminate|]. apply negb_false_iff in Eb.
      destruct (mk_obs _ _ _ _ _) as [o0|x] eqn:Eo in H; cbn [bind] in H; [|discriminate].
      exists sp, rp, ap, r, rw, (option_map so_data b). split; [reflexivity|].
      assert (X : name = nm /\ ws = rw ++ classification sp b /\ match a_group a with None => o = o0 | Some m => exists ok, group o0 m (a_scale a) (a_preserve a) = Ok (o, ok) end).
      { destruct (a_group a) as [m|]; [|injection H as <- <- <-; auto]. destruct (group o0 m _ _) as [g|x]; cbn [bind] in H; [|discriminate].
        injection H as <- <- <-. split; [reflexivity|]. split; [reflexivity|]. exists (snd g). now destruct g. }
      destruct X as (-> & -> & G). split; [assumption|]. split; [assumption|]. split; [assumption|]. split; [assumption|]. split; [assumption|]. split; [assumption|].
      split; [|split; [unfold classification; now destruct b|exists o0; auto]].
      intros x Hx. destruct b as [y|]; [|discriminate]. cbn in Hx. injection Hx as <-. now apply Nat.eqb_eq in Eb. }
    destruct (pick (a_back a) (so_back sp)) as [bp|] eqn:Eb.
    + apply pick_some in Eb. destruct (spectrum_init e bp (a_back_poisson a)) as [bo|x] eqn:Ebo; cbn [bind]; [|discriminate].
      intros H. apply (K (Some bo) H). right. exists bp, bo. auto.
    + apply pick_none in Eb. cbn [bind]. intros H. apply (K None H). left. auto.
  - intros (sp & rp & ap & r & rw & b & -> & Cn & Cr & Ca & Ri & Cb & L & Lb & -> & o0 & Mo & G). cbn [bind].
    apply pick_some in Cn as ->. apply pick_some in Cr as ->.
    assert (A : match truthy (a_ancr a) with Some f => f | None => so_ancr sp end = ap).
    { clear - Ca. unfold choice, nothing, not_given, truthy in *. destruct (a_ancr a) as [[|c g]|]; destruct Ca as [[N [H|[H K]]]|[[H K] E]]; try congruence;
      try (destruct H; congruence). }
    rewrite A, Ri. cbn [bind fst snd]. rewrite L, Nat.eqb_refl. cbn [negb].
    destruct Cb as [[Cb ->]|(bp & bo & Cb & Sb & ->)].
    + apply pick_none in Cb as ->. cbn [bind negb option_map]. rewrite Mo. cbn [bind]. destruct (a_group a) as [m|].
      * destruct G as [ok ->]. cbn [bind fst]. unfold classification. reflexivity.
      * subst o0. reflexivity.
    + apply pick_some in Cb as ->. rewrite Sb. cbn [bind]. rewrite (Lb (so_data bo) eq_refl), Nat.eqb_refl. cbn [negb option_map]. rewrite Mo. cbn [bind].
      destruct (a_group a) as [m|].
      * destruct G as [ok ->]. cbn [bind fst]. reflexivity.
      * subst o0. reflexivity.
Qed.
Print Assumptions C101_load.

(** ** Consequences for the user *)
Lemma load_obs e a name o ws : load e a = Ok (name, o, ws) -> exists sp, spectrum_init e (a_spec a) (a_spec_poisson a) = Ok sp /\ o_spec o = so_data sp /\
  (nothing (a_back a) (so_back sp) /\ o_bk o = None \/
   exists bp bo, choice (a_back a) (so_back sp) bp /\ spectrum_init e bp (a_back_poisson a) = Ok bo /\ o_bk o = Some (so_data bo)).
Proof.
  intros H. apply C101_load in H as (sp & rp & ap & r & rw & b & Hs & _ & _ & _ & _ & Cb & _ & _ & _ & o0 & Mo & G). exists sp. split; [assumption|].
  apply mk_obs_keeps in Mo as (M1 & M2 & M3).
  assert (K : o_spec o = o_spec o0 /\ o_bk o = o_bk o0).
  { destruct (a_group a); [|now subst o]. destruct G as [ok G]. apply group_keeps in G as (? & ? & ?). auto. }
  destruct K as [-> ->]. rewrite M1, M3. auto.
Qed.
(** the keyword POISSERR wins over the argument *)
Lemma mk_spectrum_poisson c er q x ql g ar ba net sys s : mk_spectrum c er q x ql g ar ba net sys = Ok s -> s_poisson s = q.
Proof.
  unfold mk_spectrum. cbv zeta. repeat match goal with |- (if ?b then _ else _) = _ -> _ => destruct b; [discriminate|] end.
  intros H. injection H as <-. reflexivity.
Qed.
Lemma read_spectrum_poisson p poisson s : read_spectrum p poisson = Ok s ->
  match p_poisserr p with Some b => Some b | None => poisson end = Some (s_poisson s).
Proof.
  unfold read_spectrum. destruct (p_counts p) as [c|], (p_rate p) as [r|]; try discriminate; destruct (match p_poisserr p with Some b => Some b | None => poisson end) as [q|]; try discriminate;
  destruct (if q then Some [] else p_stat p) as [st|]; try discriminate; cbv zeta;
  match goal with |- (if ?b then _ else _) = _ -> _ => destruct b; [discriminate|] end; intros H; apply mk_spectrum_poisson in H; now rewrite H.
Qed.
Lemma spectrum_init_hdr e path poisson o : spectrum_init e path poisson = Ok o ->
  exists file f p b r a, (split_spec path = None /\ file = path \/ exists n, split_spec path = Some (file, n)) /\ fs_spec e file = Ok f /\
    made_of (sf_hdr f) p b r a poisson o.
Proof.
  unfold spectrum_init. destruct (split_spec path) as [[file n]|] eqn:E.
  - destruct (int_of n); [|discriminate]. destruct (fs_spec e file) as [f|] eqn:Ef; cbn [bind]; [|discriminate]. unfold read_file.
    destruct (sf_tab f); [discriminate|]. destruct (pyslice _ _ _) as [|w ?]; [discriminate|]. intros H. apply obj_made in H.
    exists file, f, (w_pha w), (w_back w), (w_resp w), (w_ancr w). eauto.
  - destruct (fs_spec e path) as [f|] eqn:Ef; cbn [bind]; [|discriminate]. unfold read_file. destruct (sf_tab f) as [p|]; [|discriminate].
    destruct (type_i_ok _ _); [|discriminate]. intros H. apply obj_made in H. exists path, f, p, None, None, None. auto.
Qed.
Theorem C101_counting_statistics : forall e path poisson o, spectrum_init e path poisson = Ok o ->
  exists file f, (split_spec path = None /\ file = path \/ exists n, split_spec path = Some (file, n)) /\ fs_spec e file = Ok f /\
    (forall b, h_poisserr (sf_hdr f) = Some b -> s_poisson (so_data o) = b) /\
    (h_poisserr (sf_hdr f) = None -> poisson = Some (s_poisson (so_data o))).
Proof.
  intros e path poisson o H. apply spectrum_init_hdr in H as (file & f & p & b & r & a & Hf & Ef & (R & _)). exists file, f. split; [assumption|]. split; [assumption|].
  apply read_spectrum_poisson in R. cbn in R. split; [intros x Hx; rewrite Hx in R; now injection R|]. intros Hx. now rewrite Hx in R.
Qed.
Print Assumptions C101_counting_statistics.
(** what cannot be loaded *)
Theorem C101_refused : forall e a sp, spectrum_init e (a_spec a) (a_spec_poisson a) = Ok sp ->
  (nothing (a_name a) (so_name sp) -> load e a = Err ValueError) /\
  (nothing (a_resp a) (so_resp sp) -> load e a = Err ValueError) /\
  (forall rp ap r rw, pick (a_name a) (so_name sp) <> None -> choice (a_resp a) (so_resp sp) rp ->
     ap = match truthy (a_ancr a) with Some f => f | None => so_ancr sp end ->
     response_init e rp (Some ap) = Ok (r, rw) -> length (s_counts (so_data sp)) <> length (r_emin r) -> load e a = Err ValueError).
Proof.
  intros e a sp Hs. unfold load. rewrite Hs. cbn [bind]. split; [|split].
  - intros N. apply pick_none in N as ->. reflexivity.
  - intros N. apply pick_none in N as ->. now destruct (pick _ _).
  - intros rp ap r rw Nn Cr -> Ri L. destruct (pick (a_name a) _); [|easy]. apply pick_some in Cr as ->. rewrite Ri. cbn [bind fst].
    destruct (Nat.eqb_spec (length (s_counts (so_data sp))) (length (r_emin r))); easy.
Qed.
Print Assumptions C101_refused.
(** a flag that is neither in the header nor given *)
Theorem C101_flag_needed : forall e p f q, ~ In "{"%char p -> fs_spec e p = Ok f -> sf_tab f = Channels q -> type_i_ok (sf_hdr f) (nrows q) = true ->
  (p_counts q <> None \/ p_rate q <> None) -> h_poisserr (sf_hdr f) = None -> forall a, a_spec a = p -> a_spec_poisson a = None -> load e a = Err RuntimeError.
Proof.
  intros e p f q Hp Hf Ht Ok1 Hc Hh a <- Ha. unfold load, spectrum_init. rewrite C101_no_specifier, Hf by assumption. cbn [bind]. unfold read_file. rewrite Ht, Ok1, Ha.
  unfold read_spectrum, with_header. cbn [p_counts p_rate p_poisserr]. rewrite Hh. destruct (p_counts q), (p_rate q); try reflexivity. destruct Hc; easy.
Qed.
Print Assumptions C101_flag_needed.
(** the response: one version of the matrix, multiplied by the ancillary response if there is one *)
Theorem C101_response : forall e path ap r ws, response_init e path ap = Ok (r, ws) ->
  exists file k h f, (split_spec path = None /\ file = path /\ k = 1%Z \/ exists n, split_spec path = Some (file, n) /\ int_of n = Some k) /\
    fs_resp e file = Ok h /\ get_ext k (rh_exts h) = Some f /\
    ((not_given ap /\ read_response (with_arf f None) (fs_fwhm e f) = Ok r) \/
     (exists p x, ap = Some p /\ p <> [] /\ fs_arf e p = Ok x /\ read_response (with_arf f (Some x)) (fs_fwhm e f) = Ok r)).
Proof.
  intros e path ap r ws. unfold response_init.
  assert (K : forall file k, (split_spec path = None /\ file = path /\ k = 1%Z \/ exists n, split_spec path = Some (file, n) /\ int_of n = Some k) ->
    bind (fs_resp e file) (fun h =>
      match rh_exts h with
      | [] => Err ValueError
      | _ =>
        match get_ext k (rh_exts h) with
        | None => Err KeyError
        | Some f =>
            bind (match truthy (match ap with None => Some [] | Some a => Some a end) with Some a => bind (fs_arf e a) (fun x => Ok (Some x)) | None => Ok None end) (fun arf =>
            bind (read_response (with_arf f arf) (fs_fwhm e f)) (fun r => Ok (r, match rh_kind h, match ap with None => Some [] | Some a => Some a end with RMatrix, None => [WRmf] | _, _ => [] end)))
        end
      end) = Ok (r, ws) ->
     exists file k h f, (split_spec path = None /\ file = path /\ k = 1%Z \/ exists n, split_spec path = Some (file, n) /\ int_of n = Some k) /\
    fs_resp e file = Ok h /\ get_ext k (rh_exts h) = Some f /\
    ((not_given ap /\ read_response (with_arf f None) (fs_fwhm e f) = Ok r) \/
     (exists p x, ap = Some p /\ p <> [] /\ fs_arf e p = Ok x /\ read_response (with_arf f (Some x)) (fs_fwhm e f) = Ok r))).
  { intros file k F H. destruct (fs_resp e file) as [h|] eqn:Eh; cbn [bind] in H; [|discriminate]. exists file, k, h.
    destruct (rh_exts h) as [|x0 l0] eqn:El; [discriminate|]. rewrite <- El in H. destruct (get_ext k (rh_exts h)) as [f|] eqn:Eg; [|discriminate]. exists f.
    split; [assumption|]. split; [assumption|]. split; [congruence|]. destruct ap as [[|c a]|]; cbn [truthy bind] in H.
    - left. split; [now right|]. destruct (read_response _ _); cbn [bind] in H; [|discriminate]. now injection H as <- _.
    - right. exists (c :: a). destruct (fs_arf e (c :: a)) as [x|]; cbn [bind] in H; [|discriminate]. exists x. split; [reflexivity|]. split; [discriminate|]. split; [reflexivity|].
      destruct (read_response _ _); cbn [bind] in H; [|discriminate]. now injection H as <- _.
    - left. split; [now left|]. destruct (read_response _ _); cbn [bind] in H; [|discriminate]. now injection H as <- _. }
  destruct (split_spec path) as [[file n]|] eqn:E.
  - destruct (int_of n) as [k|] eqn:En; cbn [bind]; [|discriminate]. intros H. apply (K file k); [right; eauto|]. exact H.
  - cbn [bind]. intros H. apply (K path 1%Z); [left; auto|]. exact H.
Qed.
Print Assumptions C101_response.
(** warnings about the kind of spectrum *)
Theorem C101_warnings : forall e a name o ws, load e a = Ok (name, o, ws) -> exists sp, spectrum_init e (a_spec a) (a_spec_poisson a) = Ok sp /\
  (In WBkg ws <-> so_class sp = s2l "BKG") /\ (In WNet ws <-> so_class sp = s2l "NET" /\ o_bk o <> None).
Proof.
  intros e a name o ws H. pose proof (load_obs _ _ _ _ _ H) as (sp0 & S0 & _ & B0).
  apply C101_load in H as (sp & rp & ap & r & rw & b & Hs & _ & _ & _ & Ri & Cb & _ & _ & -> & o0 & Mo & G). exists sp. split; [assumption|].
  assert (sp0 = sp) by congruence. subst sp0.
  assert (B : o_bk o = b).
  { destruct (mk_obs_keeps _ _ _ _ _ _ Mo) as (_ & _ & M3). destruct (a_group a); [|now subst o]. destruct G as [ok G]. apply group_keeps in G as (_ & _ & E). cbn in E. congruence. }
  assert (W : rw = []).
  { revert Ri. unfold response_init, bind. destruct (match split_spec rp with Some _ => _ | None => _ end); [|discriminate]. destruct (fs_resp _ _) as [h|]; [|discriminate].
    destruct (rh_exts h); [discriminate|]. destruct (get_ext _ _); [|discriminate]. destruct (match truthy _ with Some _ => _ | None => _ end); [|discriminate].
    destruct (read_response _ _); [|discriminate]. intros H; injection H as _ <-. now destruct (rh_kind h). }
  subst rw. rewrite B. cbn [app]. split.
  - rewrite in_app_iff. destruct (str_eqb_spec (so_class sp) (s2l "BKG")) as [E|E].
    + split; [trivial|]. intros _. left. now left.
    + split; [|easy]. intros [[]|H]. exfalso. destruct b; [|easy]. destruct (str_eqb _ _); [|easy]. destruct H as [H|[]]; discriminate.
  - rewrite in_app_iff. destruct (str_eqb_spec (so_class sp) (s2l "NET")) as [E|E].
    + rewrite E. change (str_eqb (s2l "NET") (s2l "BKG")) with false. destruct b; [|split; [intros [[]|[]]|now intros [_ ?]]].
      split; [now split|]. intros _. right. now left.
    + split; [|now intros [? _]]. intros [H|H]; [destruct (str_eqb _ (s2l "BKG")); [destruct H as [H|[]]; discriminate|easy]|]. destruct b; easy.
Qed.
Print Assumptions C101_warnings.
(** A background named in the header cannot be declined: whatever the argument, a load that succeeds has a background. *)
Theorem C101_decline_background_refuted : forall e a sp name o ws, spectrum_init e (a_spec a) (a_spec_poisson a) = Ok sp -> so_back sp <> [] ->
  load e a = Ok (name, o, ws) -> o_bk o <> None.
Proof.
  intros e a sp name o ws Hs Hb H. apply load_obs in H as (sp' & Hs' & _ & [[[_ N] _]|(bp & bo & _ & _ & ->)]); [|discriminate]. congruence.
Qed.
Print Assumptions C101_decline_background_refuted.
(** The warning for a redistribution matrix without ancillary response (604-613) is never given, although the code means to:
    a missing name has become the empty string before the test for [None]. *)
Theorem C101_missing_arf_unnoticed_refuted : forall e path ap r ws, response_init e path ap = Ok (r, ws) -> ws = [].
Proof.
  intros e path ap r ws. unfold response_init, bind. destruct (match split_spec path with Some _ => _ | None => _ end); [|discriminate].
  destruct (fs_resp _ _) as [h|]; [|discriminate]. destruct (rh_exts h); [discriminate|]. destruct (get_ext _ _); [|discriminate].
  destruct (match truthy _ with Some _ => _ | None => _ end); [|discriminate]. destruct (read_response _ _); [|discriminate].
  intros H; injection H as _ <-. destruct (rh_kind h), ap; reflexivity.
Qed.
Print Assumptions C101_missing_arf_unnoticed_refuted.

(** ** A case: a one-channel type I file 's' whose header names the response 'r' and says BACKFILE = 'none', and a type II file
    'b' with two rows *)
Definition ex_hdr := {| h_detchans := Some 1%Z; h_hduclas4 := s2l "TYPE:I"; h_hduclas2 := Some (s2l " bkg "); h_poisserr := Some true;
  h_detnam := Some (s2l "None"); h_instrume := Some (s2l "GBM"); h_telescop := Some (s2l "FERMI");
  h_back := Some (s2l "none"); h_resp := Some (s2l "r"); h_ancr := None |}.
Definition ex_pha (c : R) := {| p_exposure := 1; p_counts := Some [c]; p_rate := None; p_stat := None; p_sys := Absent; p_quality := Absent;
  p_grouping := Absent; p_area := Absent; p_back := Absent; p_poisserr := None; p_net := None |}.
Definition ex_files := {|
  fs_spec := fun p => if str_eqb p (s2l "s") then Ok {| sf_hdr := ex_hdr; sf_tab := Channels (ex_pha 5) |}
                      else if str_eqb p (s2l "b") then Ok {| sf_hdr := ex_hdr; sf_tab := Rows (map (fun c => {| w_pha := ex_pha c; w_back := None; w_resp := None; w_ancr := None |}) [2; 3]) |}
                      else Err KeyError;
  fs_resp := fun p => if str_eqb p (s2l "r") then Ok {| rh_kind := RMatrix; rh_exts := [(1%Z, {| rf_elo := [1]; rf_ehi := [2]; rf_first := 1%Z; rf_nchan := 1;
       rf_rows := [{| n_grp := 1; f_chan := [1%Z]; n_chan := [1%Z]; stored := [7] |}]; rf_emin := [1]; rf_emax := [2]; rf_arf := None |})] |} else Err KeyError;
  fs_arf := fun _ => Err KeyError; fs_fwhm := fun _ => [1] |}.
Lemma ex_spectrum c : 0 <= c -> exists s, read_spectrum (with_header ex_hdr (ex_pha c)) None = Ok s /\ s_counts s = [c] /\ s_quality s = [0%Z] /\ wf_spec s 1.
Proof.
  intros Hc. unfold read_spectrum. cbn [with_header ex_pha ex_hdr p_counts p_rate p_poisserr h_poisserr p_sys p_quality p_grouping p_area p_back p_net p_exposure scale_field col_or length repeat map negb andb].
  pose proof (sqrt_pos c).
  match goal with |- exists s, ?m = Ok s /\ _ => destruct m as [s|x] eqn:E end.
  - exists s. split; [reflexivity|]. destruct (mk_spectrum_facts _ _ _ _ _ _ _ _ _ _ _ E) as (W & _ & C & _). split; [exact C|]. split; [|exact W].
    revert E. unfold mk_spectrum. cbv zeta. repeat match goal with |- (if ?b then _ else _) = _ -> _ => destruct b; [discriminate|] end.
    intros H'. injection H' as <-. reflexivity.
  - exfalso. revert E. unfold mk_spectrum, reset_zero.
    cbn [length Nat.eqb negb arr_ok arr_get repeat forallb existsb andb orb zip2 combine fst snd quality_values]. cbn [Z.eqb Pos.eqb]. rdec. discriminate.
Qed.
Lemma ex_response : exists r, response_init ex_files (s2l "r") (Some []) = Ok (r, []) /\ length (r_emin r) = 1%nat /\ wf_resp r 1.
Proof.
  exists {| r_egrid := [1; 2]; r_emin := [1]; r_emax := [2]; r_matrix := [[7 + 0]]; r_fwhm := [1] |}.
  split; [|split; [reflexivity|constructor; try reflexivity; repeat constructor]].
  unfold response_init. rewrite (C101_no_specifier (s2l "r")) by (intros [H|[]]; discriminate).
  unfold read_response, mk_response, photon_grid. cbn -[Rltb Rleb Rmax]. rdec. cbn -[Rltb Rleb Rmax]. rdec. reflexivity.
Qed.
Example ex_row_two : exists o, spectrum_init ex_files (s2l "b{2}") None = Ok o /\ s_counts (so_data o) = [3] /\ so_name o = s2l "GBM".
Proof.
  destruct (ex_spectrum 3) as (s & R & C & _); [lra|].
  exists {| so_data := s; so_name := s2l "GBM"; so_back := []; so_resp := s2l "r"; so_ancr := []; so_class := s2l "BKG" |}.
  split; [|split; [exact C|reflexivity]]. change (s2l "b{2}") with (row_spec (s2l "b") 2).
  apply (proj1 (C101_row ex_files (s2l "b") _ _ 2 None ltac:(discriminate) ltac:(intros [H|[]]; discriminate) eq_refl eq_refl)).
  split; [lia|]. eexists. split; [reflexivity|]. split; [exact R|]. split; [reflexivity|]. rewrite <- !linked_spec. repeat split.
Qed.
Example ex_type_i : exists o, spectrum_init ex_files (s2l "s") None = Ok o /\ s_counts (so_data o) = [5] /\ so_back o = [].
Proof.
  destruct (ex_spectrum 5) as (s & R & C & _); [lra|].
  exists {| so_data := s; so_name := s2l "GBM"; so_back := []; so_resp := s2l "r"; so_ancr := []; so_class := s2l "BKG" |}.
  split; [|split; [exact C|reflexivity]].
  apply (C101_table ex_files (s2l "s") {| sf_hdr := ex_hdr; sf_tab := Channels (ex_pha 5) |} None _ ltac:(intros [H|[]]; discriminate) eq_refl).
  exists (ex_pha 5). split; [reflexivity|]. split; [split; [exact R|]; split; [reflexivity|]; rewrite <- !linked_spec; repeat split|]. split; [now right|discriminate].
Qed.
(** the whole call: the name is that of INSTRUME (DETNAM is 'None'), the response that of the header, no background *)
Definition ex_args (back : option str) := {| a_erange := [(1, 2)]; a_spec := s2l "s"; a_back := back; a_resp := None; a_ancr := Some []; a_name := None;
  a_group := None; a_scale := None; a_preserve := false; a_spec_poisson := None; a_back_poisson := None; a_ignore_bad := true |}.
Example ex_load : exists o, load ex_files (ex_args None) = Ok (s2l "GBM", o, [WBkg]).
Proof.
  destruct (ex_spectrum 5) as (s & R & C & Q & W); [lra|]. destruct ex_response as (r & Hr & L & Wr).
  destruct (mk_obs_defined [(1, 2)] s r None true 1 W Wr ltac:(discriminate) ltac:(lia)) as [o Ho].
  { split; [discriminate|]. split; [repeat constructor; cbn; lra|]. repeat constructor. }
  { unfold good_mask. rewrite Q. reflexivity. }
  exists o. apply C101_load.
  exists {| so_data := s; so_name := s2l "GBM"; so_back := []; so_resp := s2l "r"; so_ancr := []; so_class := s2l "BKG" |}, (s2l "r"), [], r, [], None.
  split.
  { apply (C101_table ex_files (s2l "s") {| sf_hdr := ex_hdr; sf_tab := Channels (ex_pha 5) |} None _ ltac:(intros [H|[]]; discriminate) eq_refl).
    exists (ex_pha 5). split; [reflexivity|]. split; [split; [exact R|]; split; [reflexivity|]; rewrite <- !linked_spec; repeat split|]. split; [now right|discriminate]. }
  cbn [so_name so_resp so_ancr so_back so_data so_class].
  split; [split; [discriminate|]; right; split; [now left|reflexivity]|].
  split; [split; [discriminate|]; right; split; [now left|reflexivity]|].
  split; [right; split; [split; [now right|reflexivity]|reflexivity]|].
  split; [exact Hr|]. split; [left; split; [split; [now left|reflexivity]|reflexivity]|].
  split; [rewrite C, L; reflexivity|]. split; [discriminate|]. split; [reflexivity|]. exists o. split; [exact Ho|reflexivity].
Qed.
