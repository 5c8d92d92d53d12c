(** C104: what the spectral plots show. *)
From Coq Require Import Ascii String.
From Coq Require Import Lia Lra Sorting.Sorted Permutation.
From Verif Require Import RBase Base Data DataProofs Namespace NamespaceProofs HelperData HelperDataProofs ModelAlg Config Results ResultsProofs Summary SummaryProofs SimulateProofs CompileProofs
  Prop_Summary Intensity Prop_Intensity PlotCache Prop_PlotCache PlotCurves Prop_PlotCurves PlotSettings PostSummary Prop_PostSummary Spectral.
From Coq Require Import List.
Open Scope list_scope.
Open Scope R_scope.

(** ** specification: the text that asks for plots *)
(** white space of python (ASCII) *)
Definition blank (c : ascii) : Prop := In (nat_of_ascii c) [9; 10; 11; 12; 13; 28; 29; 30; 31; 32]%nat.
Definition word (w : str) : Prop := w <> [] /\ Forall (fun c => ~ blank c) w.
Definition blanks (s : str) : Prop := s <> [] /\ Forall blank s.
(** words separated by white space *)
Definition text (w : str) (rest : list (str * str)) : str := w ++ concat (map (fun sw => fst sw ++ snd sw) rest).
Definition spaced (w : str) (rest : list (str * str)) : Prop := word w /\ Forall (fun sw => blanks (fst sw) /\ word (snd sw)) rest.
Definition words (w : str) (rest : list (str * str)) : list str := w :: map snd rest.
(** the documented words: 1320-1336 and 1503-1521 *)
Definition spectral : list str := map s2l ["data"; "ne"; "ene"; "eene"; "Fv"; "FvJy"; "vFv"; "r"; "rd"; "rp"; "rq"]%string.
Definition other_words (posterior : bool) : list str := map s2l ["corner"; "gof"; "qq"; "pit"]%string ++ (if posterior then map s2l ["trace"; "khat"]%string else []).
Definition ask (posterior : bool) : str -> res (list (str * action)) := if posterior then figures_post else figures_mle.

Lemma blank_spec c : is_space c = true <-> blank c.
Proof.
  unfold is_space, blank. set (n := nat_of_ascii c). cbv zeta. rewrite Bool.orb_true_iff, !Bool.andb_true_iff, !Nat.leb_le. cbn [In]. lia.
Qed.
Lemma space_true c : blank c -> is_space c = true. Proof. apply blank_spec. Qed.
Lemma space_false c : ~ blank c -> is_space c = false.
Proof. intros H. destruct (is_space c) eqn:E; [|reflexivity]. now apply blank_spec in E. Qed.
Lemma cut_word w : Forall (fun c => ~ blank c) w -> w <> [] -> forall sep t, cut sep (w ++ t) = (w ++ fst (cut false t), snd (cut false t)).
Proof.
  intros H. induction H as [|c w Hc H IH]; intros N sep t; [easy|]. cbn [cut app]. rewrite (space_false _ Hc). destruct w as [|d w].
  - cbn [app]. destruct (cut false t). reflexivity.
  - rewrite IH by discriminate. reflexivity.
Qed.
Lemma cut_blanks b : Forall blank b -> forall t, cut true (b ++ t) = cut true t.
Proof. intros H. induction H as [|c b Hc H IH]; intros t; [reflexivity|]. cbn [app cut]. rewrite (space_true _ Hc). apply IH. Qed.
Lemma cut_sep b : blanks b -> forall t, cut false (b ++ t) = ([], fst (cut true t) :: snd (cut true t)).
Proof.
  intros [N H] t. destruct H as [|c b Hc H]; [easy|]. cbn [app cut]. rewrite (space_true _ Hc), (cut_blanks b H). now destruct (cut true t).
Qed.
Theorem C104_words : forall w rest, spaced w rest -> resplit (text w rest) = words w rest.
Proof.
  intros w rest [[Nw Hw] H]. unfold resplit, text, words. rewrite (cut_word w Hw Nw).
  assert (G : snd (cut false (concat (map (fun sw => fst sw ++ snd sw) rest))) = map snd rest /\ fst (cut false (concat (map (fun sw => fst sw ++ snd sw) rest))) = []).
  { clear Nw Hw w. induction H as [|[b v] rest [Hb [Nv Hv]] H IH]; [now split|]. cbn [map concat fst snd] in *. rewrite <- app_assoc, (cut_sep b Hb). cbn [fst snd]. split; [|reflexivity].
    rewrite (cut_word v Hv Nv). cbn [fst snd]. destruct IH as [-> ->]. now rewrite app_nil_r. }
  destruct G as [-> ->]. now rewrite app_nil_r.
Qed.
Print Assumptions C104_words.

Lemma cut_trailing b : blanks b -> forall s sep, let '(w, l) := cut sep (s ++ b) in (sep = false -> l <> []) /\ (l = [] -> w = []) /\ last l [] = [].
Proof.
  intros [N H]. induction s as [|c s IH]; intros sep.
  - cbn [app]. destruct sep.
    + rewrite <- (app_nil_r b). rewrite (cut_blanks b H). cbn. now split; [discriminate|].
    + rewrite <- (app_nil_r b). rewrite (cut_sep b (conj N H)). cbn. now split; [discriminate|].
  - cbn [app cut]. destruct (is_space c).
    + destruct sep; [apply IH|]. specialize (IH true). destruct (cut true (s ++ b)) as [w l]. destruct IH as (_ & I2 & I3). split; [discriminate|]. split; [discriminate|].
      destruct l as [|x l]; [cbn; now apply I2|exact I3].
    + specialize (IH false). destruct (cut false (s ++ b)) as [w l]. destruct IH as (I1 & _ & I3). split; [intros _; now apply I1|]. split; [|exact I3]. intros ->. now destruct (I1 eq_refl).
Qed.
Lemma documented (posterior : bool) (w : str) : str_in w (if posterior then supported_post else supported_mle) = true <-> In w spectral \/ In w (other_words posterior).
Proof.
  rewrite str_in_spec. destruct posterior.
  - unfold supported_post, supported_mle, spectral, other_words. cbn [map app In]. tauto.
  - unfold supported_mle, spectral, other_words. cbn [map app In]. tauto.
Qed.
Lemma empty_unknown posterior : ~ (In [] spectral \/ In [] (other_words posterior)).
Proof. intros [H|H]; [|destruct posterior]; vm_compute in H; repeat (destruct H as [H|H]; [discriminate H|]); exact H. Qed.
Lemma ask_unfold (posterior : bool) s : ask posterior s = figures (if posterior then supported_post else supported_mle) (if posterior then others_post else others_mle) s.
Proof. now destruct posterior. Qed.
Lemma unknown_fails posterior s w : In w (resplit s) -> ~ (In w spectral \/ In w (other_words posterior)) -> ask posterior s = Err ValueError.
Proof.
  intros I N. rewrite ask_unfold. unfold figures. cbv zeta. assert (E : existsb (fun p => negb (str_in p (if posterior then supported_post else supported_mle))) (resplit s) = true).
  { apply existsb_exists. exists w. split; [exact I|]. apply Bool.negb_true_iff. destruct (str_in w _) eqn:E; [|reflexivity]. now apply documented in E. }
  now rewrite E.
Qed.
(** white space before the first word or behind the last one makes the request fail, as does an empty text *)
Theorem C104_blank_edges_refuted : forall posterior s b, blanks b ->
  ask posterior (b ++ s) = Err ValueError /\ ask posterior (s ++ b) = Err ValueError /\ ask posterior [] = Err ValueError.
Proof.
  intros posterior s b Hb. split; [|split].
  - apply (unknown_fails posterior _ []); [|apply empty_unknown]. unfold resplit. rewrite (cut_sep b Hb). now left.
  - apply (unknown_fails posterior _ []); [|apply empty_unknown]. unfold resplit. pose proof (cut_trailing b Hb s false) as C. destruct (cut false (s ++ b)) as [w l]. destruct C as (N & _ & L).
    right. rewrite <- L at 1. specialize (N eq_refl). destruct (exists_last N) as (l' & x & ->). rewrite last_last. apply in_or_app. right. now left.
  - apply (unknown_fails posterior _ []); [|apply empty_unknown]. now left.
Qed.
Print Assumptions C104_blank_edges_refuted.

(** each figure is made once: a single one for all the spectral plots, and one for each other plot; unknown words fail *)
Theorem C104_figures : forall posterior w rest, spaced w rest -> let ws := words w rest in
  (Forall (fun x => In x spectral \/ In x (other_words posterior)) ws ->
   exists l, ask posterior (text w rest) = Ok l /\ NoDup (map fst l) /\
     forall k, In k (map fst l) <-> (k = s2l "spec" /\ exists x, In x ws /\ In x spectral) \/ (In k (other_words posterior) /\ In k ws)) /\
  (~ Forall (fun x => In x spectral \/ In x (other_words posterior)) ws -> ask posterior (text w rest) = Err ValueError).
Proof.
  intros posterior w rest H ws. pose proof (C104_words w rest H) as E. fold ws in E. split.
  - intros F. rewrite ask_unfold. unfold figures. rewrite E. cbv zeta. assert (X : existsb (fun p => negb (str_in p (if posterior then supported_post else supported_mle))) ws = false).
    { apply Bool.not_true_is_false. intros X. apply existsb_exists in X as (x & Ix & X). apply Bool.negb_true_iff in X. rewrite Forall_forall in F. apply F in Ix. apply documented in Ix. congruence. }
    rewrite X. eexists. split; [reflexivity|]. assert (EO : (if posterior then others_post else others_mle) = other_words posterior) by now destruct posterior. rewrite EO.
    rewrite map_app, map_map. cbn [fst]. rewrite map_id. assert (ND : NoDup (s2l "spec" :: other_words posterior)).
    { destruct posterior; vm_compute; repeat (constructor; [intros Hx; cbn in Hx; repeat (destruct Hx as [Hx|Hx]; [discriminate Hx|]); exact Hx|]); constructor. }
    inversion ND as [|? ? Ns NDo]; subst. split.
    + destruct (existsb _ spec_words); cbn [map app].
      * constructor; [intros Hx; apply filter_In in Hx as [Hx _]; now apply Ns|now apply NoDup_filter].
      * now apply NoDup_filter.
    + intros k. rewrite in_app_iff. assert (Eb : existsb (fun x => str_in x ws) spec_words = true <-> exists x, In x ws /\ In x spectral).
      { rewrite existsb_exists. split; intros (x & A & B); exists x; [split; [now apply str_in_spec|exact A]|split; [exact B|now apply str_in_spec]]. }
      split.
      * intros [K|K]; [left; destruct (existsb (fun x => str_in x ws) spec_words); [|easy]; destruct K as [<-|[]]; split; [reflexivity|now apply Eb]|right; apply filter_In in K as [A B]; split; [exact A|now apply str_in_spec]].
      * intros [[-> K]|[A B]]; [left; apply Eb in K; rewrite K; now left|right; apply filter_In; split; [exact A|now apply str_in_spec]].
  - intros N. assert (D : exists x, In x ws /\ ~ (In x spectral \/ In x (other_words posterior))).
    { clear -N. induction ws as [|x ws IH]; [now destruct N|]. destruct (str_in x (if posterior then supported_post else supported_mle)) eqn:Ex.
      - destruct IH as (y & Iy & Ny); [intros F; apply N; constructor; [now apply documented|exact F]|]. exists y. split; [now right|exact Ny].
      - exists x. split; [now left|]. intros X. apply documented in X. congruence. }
    destruct D as (x & Ix & Nx). apply (unknown_fails posterior _ x); [now rewrite E|exact Nx].
Qed.
Print Assumptions C104_figures.

(** ** the panels *)
(** the residuals shown are those of the last word that asks for residuals *)
Definition residuals_shown (cfg : config) (ws : list str) (r : rtype) : Prop :=
  exists a x b, ws = a ++ x :: b /\ (forall y, In y b -> ~ In y (map s2l ["r"; "rd"; "rp"; "rq"]%string)) /\
  ((x = s2l "r" /\ r = c_residuals cfg) \/ (x = s2l "rd" /\ r = RD) \/ (x = s2l "rp" /\ r = RP) \/ (x = s2l "rq" /\ r = RQ)).
Definition rank (p : panel) : nat := match p with PData => 0 | PModel NE _ => 1 | PModel ENE _ => 2 | PModel EENE _ => 3 | PResiduals _ => 4 end.
Lemma residuals_spec cfg ws r : (match residuals_of ws with None => False | Some None => r = c_residuals cfg | Some (Some q) => r = q end) <-> residuals_shown cfg ws r.
Proof.
  unfold residuals_of, residuals_shown. assert (F : forall x, str_in x residual_words = true <-> In x (map s2l ["r"; "rd"; "rp"; "rq"]%string)) by (intros x; apply str_in_spec).
  induction ws as [|y ws IH] using rev_ind.
  - cbn. split; [easy|]. intros (a & x & b & E & _). now destruct a.
  - rewrite filter_app, rev_app_distr. cbn [filter]. destruct (str_in y residual_words) eqn:Ey.
    + cbn [rev app]. apply F in Ey. split.
      * intros H. exists ws, y, []. split; [reflexivity|]. split; [easy|]. cbn [map In] in Ey.
        destruct Ey as [<-|[<-|[<-|[<-|[]]]]]; cbn in H; auto 10.
      * intros (a & x & b & E & Nb & H). assert (b = []) as ->.
        { destruct b as [|z b] using rev_ind; [reflexivity|]. exfalso. apply (Nb y); [|exact Ey]. change (a ++ x :: b ++ [z]) with (a ++ (x :: b) ++ [z]) in E. rewrite app_assoc in E. apply app_inj_tail in E as [_ ->]. apply in_or_app. right. now left. }
        apply app_inj_tail in E as [_ ->]. destruct H as [[-> ->]|[[-> ->]|[[-> ->]|[-> ->]]]]; cbn; reflexivity.
    + cbn [rev app]. rewrite IH. assert (N : ~ In y (map s2l ["r"; "rd"; "rp"; "rq"]%string)) by (intros X; apply F in X; congruence). split.
      * intros (a & x & b & -> & Nb & H). exists a, x, (b ++ [y]). split; [now rewrite <- app_assoc|]. split; [|exact H]. intros z Hz. apply in_app_or in Hz as [Hz|[<-|[]]]; [now apply Nb|exact N].
      * intros (a & x & b & E & Nb & H). destruct b as [|z b _] using rev_ind.
        -- apply app_inj_tail in E as [_ ->]. exfalso. apply N. destruct H as [[-> _]|[[-> _]|[[-> _]|[-> _]]]]; cbn; auto.
        -- exists a, x, b. change (a ++ x :: b ++ [z]) with (a ++ (x :: b) ++ [z]) in E. rewrite app_assoc in E. apply app_inj_tail in E as [-> _]. split; [reflexivity|]. split; [|exact H]. intros v Hv. apply Nb, in_or_app. now left.
Qed.
Lemma any_spec ws l : any_of l ws = true <-> exists x, In x l /\ In (s2l x) ws.
Proof. unfold any_of. rewrite existsb_exists. split; intros (x & A & B); exists x; (split; [exact A|now apply str_in_spec]). Qed.
Ltac in_words := repeat match goal with H : str_in ?a ?b = true |- _ => apply str_in_spec in H end.
Theorem C104_panels : forall posterior cfg w rest l a, spaced w rest -> ask posterior (text w rest) = Ok l -> In (s2l "spec", ASpec a) l ->
  let asked x := In (s2l x) (words w rest) in
  exists ps, panels cfg a = Ok ps /\ StronglySorted (fun p q => (rank p < rank q)%nat) ps /\
  (In PData ps <-> asked "data"%string) /\
  (forall y, In (PModel NE y) ps <-> asked "ne"%string /\ y = LNe) /\
  (forall y, In (PModel ENE y) ps <-> (asked "FvJy"%string /\ y = LFvJy) \/ (~ asked "FvJy"%string /\ asked "Fv"%string /\ y = LFv) \/
                                      (~ asked "FvJy"%string /\ ~ asked "Fv"%string /\ asked "ene"%string /\ y = LEne)) /\
  (forall y, In (PModel EENE y) ps <-> (asked "vFv"%string /\ y = LvFv) \/ (~ asked "vFv"%string /\ asked "eene"%string /\ y = LEene)) /\
  (forall r, In (PResiduals r) ps <-> residuals_shown cfg (words w rest) r).
Proof.
  intros posterior cfg w rest l a Hs H Ha asked. rewrite ask_unfold in H. unfold figures in H. rewrite (C104_words w rest Hs) in H. cbv zeta in H. set (ws := words w rest) in *.
  clearbody ws. destruct (existsb (fun p => negb _) ws); [discriminate|]. match type of H with Ok ?x = Ok _ => assert (Hl : l = x) by congruence end. rewrite Hl in Ha. clear Hl H. apply in_app_or in Ha as [Ha|Ha]; [|apply in_map_iff in Ha as (? & ? & _); discriminate].
  destruct (existsb (fun w => str_in w ws) spec_words) eqn:Ex; [|exfalso; exact Ha]. destruct Ha as [Ha|[]]. match type of Ha with (_, ASpec ?x) = _ => assert (Hx : a = x) by congruence end. rewrite Hx. clear Ha Hx l.
  assert (D : forall x, str_in (s2l x) ws = true <-> asked x) by (intros x; apply str_in_spec). pose proof (residuals_spec cfg ws) as RS.
  unfold panels, spec_of. cbn [a_data a_ne a_ene a_eene a_res a_Fv a_vFv a_FvJy label_of]. cbv zeta.
  set (l := (if str_in (s2l "data") ws then [PData] else []) ++ _).
  assert (C : (In PData l <-> asked "data"%string) /\ (forall y, In (PModel NE y) l <-> asked "ne"%string /\ y = LNe) /\
    (forall y, In (PModel ENE y) l <-> (asked "FvJy"%string /\ y = LFvJy) \/ (~ asked "FvJy"%string /\ asked "Fv"%string /\ y = LFv) \/ (~ asked "FvJy"%string /\ ~ asked "Fv"%string /\ asked "ene"%string /\ y = LEne)) /\
    (forall y, In (PModel EENE y) l <-> (asked "vFv"%string /\ y = LvFv) \/ (~ asked "vFv"%string /\ asked "eene"%string /\ y = LEene)) /\
    (forall r, In (PResiduals r) l <-> residuals_shown cfg ws r) /\ StronglySorted (fun p q => (rank p < rank q)%nat) l).
  { unfold l, any_of. clear l. cbn [existsb]. rewrite !Bool.orb_false_r.
    pose proof (D "data"%string) as D1. pose proof (D "ne"%string) as D2. pose proof (D "ene"%string) as D3. pose proof (D "Fv"%string) as D4. pose proof (D "FvJy"%string) as D5. pose proof (D "eene"%string) as D6. pose proof (D "vFv"%string) as D7.
    set (rl := match residuals_of ws with None => [] | Some None => [PResiduals (c_residuals cfg)] | Some (Some r) => [PResiduals r] end).
    assert (R1 : forall r, In (PResiduals r) rl <-> residuals_shown cfg ws r).
    { intros r. rewrite <- RS. unfold rl. destruct (residuals_of ws) as [[q|]|]; cbn [In]; [| |tauto]; (split; [intros [X|[]]; now injection X as ->|intros ->; now left]). }
    assert (R2 : forall p, In p rl -> exists r, p = PResiduals r).
    { intros p. unfold rl. destruct (residuals_of ws) as [[q|]|]; cbn [In]; [| |easy]; (intros [<-|[]]; eauto). }
    assert (R3 : StronglySorted (fun p q => (rank p < rank q)%nat) rl) by (unfold rl; destruct (residuals_of ws) as [[q|]|]; repeat constructor).
    clearbody rl.
    set (b1 := str_in (s2l "data") ws) in *. set (b2 := str_in (s2l "ne") ws) in *. set (b3 := str_in (s2l "ene") ws) in *. set (b4 := str_in (s2l "Fv") ws) in *.
    set (b5 := str_in (s2l "FvJy") ws) in *. set (b6 := str_in (s2l "eene") ws) in *. set (b7 := str_in (s2l "vFv") ws) in *. clearbody b1 b2 b3 b4 b5 b6 b7.
    assert (IF : forall (b : bool) (p q : panel), In p (if b then [q] else []) <-> b = true /\ p = q).
    { intros b p q. destruct b; cbn [In]; [|split; [easy|intros [X _]; discriminate]]. split; [intros [X|[]]; now split|intros [_ ->]; now left]. }
    assert (RM : forall y q, ~ In (PModel q y) rl) by (intros y q X; apply R2 in X as (? & X); discriminate).
    assert (RP : ~ In PData rl) by (intros X; apply R2 in X as (? & X); discriminate).
    split; [|split; [|split; [|split; [|split]]]].
    + rewrite !in_app_iff, !IF, <- D1. split; [|auto]. intros [[X _]|[[_ X]|[[_ X]|[[_ X]|X]]]]; [exact X|discriminate X|discriminate X|discriminate X|now apply RP in X].
    + intros y. rewrite !in_app_iff, !IF, <- D2. split; [|intros [X ->]; auto]. intros [[_ X]|[[A X]|[[_ X]|[[_ X]|X]]]]; [discriminate X|injection X as ->; auto|discriminate X|discriminate X|now apply RM in X].
    + intros y. rewrite !in_app_iff, !IF, <- D5, <- D4, <- D3. split.
      * intros [[_ X]|[[_ X]|[[A X]|[[_ X]|X]]]]; [discriminate X|discriminate X| |discriminate X|now apply RM in X]. injection X as ->. destruct b5; [now left|]. destruct b4; [right; left; auto|]. destruct b3; [|discriminate]. right. right. auto.
      * intros X. right. right. left. destruct b5; [destruct X as [[_ ->]|[(X & _)|(X & _)]]; [|easy|easy]; split; [apply Bool.orb_true_r || now destruct b3, b4|reflexivity]|].
        destruct X as [[X _]|[(_ & X & ->)|(_ & X & Y & ->)]]; [discriminate|rewrite X; split; [now destruct b3|reflexivity]|]. rewrite Y. destruct b4; [easy|]. now split.
    + intros y. rewrite !in_app_iff, !IF, <- D7, <- D6. split.
      * intros [[_ X]|[[_ X]|[[_ X]|[[A X]|X]]]]; [discriminate X|discriminate X|discriminate X| |now apply RM in X]. injection X as ->. destruct b7; [now left|]. right. rewrite Bool.orb_false_r in A. auto.
      * intros X. right. right. right. left. destruct b7; [destruct X as [[_ ->]|(X & _)]; [|easy]; split; [apply Bool.orb_true_r|reflexivity]|]. destruct X as [[X _]|(_ & X & ->)]; [discriminate|]. now rewrite X.
    + intros r. rewrite !in_app_iff, !IF, <- R1. split; [|tauto]. intros [[_ X]|[[_ X]|[[_ X]|[[_ X]|X]]]]; [discriminate X|discriminate X|discriminate X|discriminate X|exact X].
    + assert (RF : forall n, (n < 4)%nat -> Forall (fun q => (n < rank q)%nat) rl) by (intros n Hn; apply Forall_forall; intros q Hq; apply R2 in Hq as (? & ->); exact Hn).
      generalize (if b5 then LFvJy else if b4 then LFv else LEne) (if b7 then LvFv else LEene). intros y3 y4. generalize (b3 || (b4 || b5))%bool (b6 || b7)%bool. intros b8 b9.
      destruct b1, b2, b8, b9; cbn [app]; repeat (constructor; [|repeat (constructor; [cbn; lia|]); apply RF; cbn; lia]); exact R3. }
  destruct C as (C1 & C2 & C3 & C4 & C5 & C6). destruct l as [|p0 l0] eqn:El.
  - exfalso. apply existsb_exists in Ex as (x & Hx & Ex). unfold spec_words in Hx. cbn [map In] in Hx.
    assert (NR : forall r, ~ residuals_shown cfg ws r) by (intros r Xr; now apply C5 in Xr).
    assert (RR : forall x, str_in x residual_words = true -> str_in x ws = true -> False).
    { intros z Hz Iz. specialize (RS). destruct (residuals_of ws) as [q|] eqn:Eq; [destruct q as [q|]; [apply (NR q)|apply (NR (c_residuals cfg))]; now apply RS|]. unfold residuals_of in Eq.
      destruct (rev (filter (fun w => str_in w residual_words) ws)) eqn:Er; [|discriminate]. apply str_in_spec in Iz. assert (In z (rev (filter (fun w => str_in w residual_words) ws))) by (apply -> in_rev; apply filter_In; tauto). now rewrite Er in H. }
    destruct Hx as [<-|[<-|[<-|[<-|[<-|[<-|[<-|[<-|[<-|[<-|[<-|[]]]]]]]]]]]]; apply D in Ex.
    + now apply C1 in Ex. + now apply (proj2 (C2 LNe)).
    + destruct (str_in (s2l "FvJy") ws) eqn:E1; [apply D in E1; apply (proj2 (C3 LFvJy)); tauto|]. destruct (str_in (s2l "Fv") ws) eqn:E2.
      * apply D in E2. apply (proj2 (C3 LFv)). right. left. split; [intros X; apply D in X; congruence|tauto].
      * apply (proj2 (C3 LEne)). right. right. split; [intros X; apply D in X; congruence|]. split; [intros X; apply D in X; congruence|tauto].
    + destruct (str_in (s2l "vFv") ws) eqn:E1; [apply D in E1; apply (proj2 (C4 LvFv)); tauto|]. apply (proj2 (C4 LEene)). right. split; [intros X; apply D in X; congruence|tauto].
    + destruct (str_in (s2l "FvJy") ws) eqn:E1; [apply D in E1; apply (proj2 (C3 LFvJy)); tauto|]. apply (proj2 (C3 LFv)). right. left. split; [intros X; apply D in X; congruence|tauto].
    + apply (proj2 (C3 LFvJy)). tauto.
    + apply (proj2 (C4 LvFv)). tauto.
    + exact (RR (s2l "r") eq_refl (proj2 (D "r"%string) Ex)).
    + exact (RR (s2l "rd") eq_refl (proj2 (D "rd"%string) Ex)).
    + exact (RR (s2l "rp") eq_refl (proj2 (D "rp"%string) Ex)).
    + exact (RR (s2l "rq") eq_refl (proj2 (D "rq"%string) Ex)).
  - exists (p0 :: l0). split; [reflexivity|]. auto 10.
Qed.
Print Assumptions C104_panels.

(** ** specification: the curves *)
(** N(E), E N(E) and E^2 N(E) of a bin from [a] to [b] keV with [n] photons: photons per keV; erg per keV and erg, at the geometric mean energy *)
Definition per_bin (q : quantity) (a b n : R) : R :=
  match q with NE => n / (b - a) | ENE => keV_to_erg * sqrt (a * b) * (n / (b - a)) | EENE => keV_to_erg * (a * b) * (n / (b - a)) end.
Definition bin_value (q : quantity) (g : list R) (f : dict R -> spectrum) (i : nat) (p : dict R) : R := per_bin q (nth i g 0) (nth (S i) g 0) (nth i (f p g) 0).
Definition unit_factor (l : ylabel) : R := match l with LFvJy => fv_to_jy | _ => 1 end.
(** a line with one step for each bin of [g], of height [v i] *)
Definition bins_drawn (steps : list (R * R * R)) (g : list R) (v : nat -> R) : Prop :=
  steps = map (fun i => (nth i g 0, nth (S i) g 0, v i)) (seq 0 (length g - 1)).
(** the estimate of a function of the parameters, with the user's values put in: its value at the best fit, or the posterior median *)
Definition estimate (ft : fit) (params : dict R) (f : dict R -> R) (v : R) : Prop :=
  match ft with FitMle mle _ => v = f (puts mle params) | FitPost rows => is_median (map (fun p => f (puts p params)) rows) v end.
Definition samples (ft : fit) : option (list (dict R)) := match ft with FitMle _ boot => boot | FitPost rows => Some rows end.
(** the photon energies shown: those given by the user, otherwise the edges inside of the energy range of the channels *)
Definition grid_used (egrid : dict (list R)) (d : pdata) (g : list R) : Prop :=
  match get egrid (pd_name d) with
  | Some g' => g = g'
  | None => exists e0 el e1 eh, pd_emin d = e0 :: el /\ pd_emax d = eh ++ [e1] /\
            exists a b, pd_egrid d = a ++ g ++ b /\ Forall (fun e => e < e0) a /\ Forall (fun e => e0 <= e <= e1) g /\ Forall (fun e => e1 < e) b
  end.
Definition shown (ft : fit) (cfg : config) (q : quantity) (l : ylabel) (params : dict R) (egrid : dict (list R)) (d : pdata) (w : drawing) : Prop :=
  w_name w = pd_name d /\ exists g, grid_used egrid d g /\ (2 <= length g)%nat /\
  let curve line f := exists v, bins_drawn (concat (map pieces line)) g (fun i => v i * unit_factor l) /\
    forall i, (i < length g - 1)%nat -> estimate ft params (bin_value q g f i) (v i) in
  curve (w_line w) (m_total (pd_model d)) /\
  match samples ft with
  | None => w_bands w = None
  | Some rows => exists bs, w_bands w = Some bs /\ forall k c, nth_error (c_cl cfg) k = Some c -> 0 < c < 1 /\ exists lo hi,
      (forall z, bins_drawn (concat (map (fun s => pieces (lower_line (nth k s z))) bs)) g (fun i => lo i * unit_factor l)) /\
      (forall z, bins_drawn (concat (map (fun s => pieces (upper_line (nth k s z))) bs)) g (fun i => hi i * unit_factor l)) /\
      forall i, (i < length g - 1)%nat -> central (map (fun p => bin_value q g (m_total (pd_model d)) i (puts p params)) rows) c (lo i) (hi i) /\ lo i <= hi i
  end /\
  if (c_comps cfg && (2 <=? length (m_parts (pd_model d)))%nat)%bool
  then Forall2 (fun part c => fst c = fst part /\ curve (snd c) (snd part)) (m_parts (pd_model d)) (w_comps w)
  else w_comps w = [].
(** a spectrum has one value for each bin *)
Definition sized (m : cmodel) : Prop := forall f, (f = m_total m \/ exists n, In (n, f) (m_parts m)) -> forall p g, length (f p g) = (length g - 1)%nat.
Definition increasing (g : list R) : Prop := StronglySorted Rlt g.

(** ** bins *)
Lemma diff_len g : length (diff g) = (length g - 1)%nat.
Proof. induction g as [|a [|b g] IH]; [reflexivity|reflexivity|]. change (diff (a :: b :: g)) with ((b - a) :: diff (b :: g)). cbn [length] in *. rewrite IH. lia. Qed.
Lemma emid_len g : length (emid g) = (length g - 1)%nat.
Proof. induction g as [|a [|b g] IH]; [reflexivity|reflexivity|]. change (emid (a :: b :: g)) with (sqrt (a * b) :: emid (b :: g)). cbn [length] in *. rewrite IH. lia. Qed.
Lemma e2s_len g : length (e2s g) = (length g - 1)%nat.
Proof. induction g as [|a [|b g] IH]; [reflexivity|reflexivity|]. change (e2s (a :: b :: g)) with (a * b :: e2s (b :: g)). cbn [length] in *. rewrite IH. lia. Qed.
Lemma diff_nth g : forall i, (i < length g - 1)%nat -> nth i (diff g) 0 = nth (S i) g 0 - nth i g 0.
Proof. induction g as [|a [|b g] IH]; intros i H; [cbn in H; lia|cbn in H; lia|]. change (diff (a :: b :: g)) with ((b - a) :: diff (b :: g)). destruct i; [reflexivity|]. cbn [nth]. rewrite IH; [reflexivity|cbn in *; lia]. Qed.
Lemma emid_nth g : forall i, (i < length g - 1)%nat -> nth i (emid g) 0 = sqrt (nth i g 0 * nth (S i) g 0).
Proof. induction g as [|a [|b g] IH]; intros i H; [cbn in H; lia|cbn in H; lia|]. change (emid (a :: b :: g)) with (sqrt (a * b) :: emid (b :: g)). destruct i; [reflexivity|]. cbn [nth]. rewrite IH; [reflexivity|cbn in *; lia]. Qed.
Lemma e2s_nth g : forall i, (i < length g - 1)%nat -> nth i (e2s g) 0 = nth i g 0 * nth (S i) g 0.
Proof. induction g as [|a [|b g] IH]; intros i H; [cbn in H; lia|cbn in H; lia|]. change (e2s (a :: b :: g)) with (a * b :: e2s (b :: g)). destruct i; [reflexivity|]. cbn [nth]. rewrite IH; [reflexivity|cbn in *; lia]. Qed.
Lemma map2_len f a : forall b, length b = length a -> length (map2 f a b) = length a.
Proof. induction a as [|x a IH]; intros [|y b] H; cbn in *; try easy. rewrite IH; lia. Qed.
Lemma map2_nth f a : forall b i, length b = length a -> (i < length a)%nat -> nth i (map2 f a b) 0 = f (nth i a 0) (nth i b 0).
Proof. induction a as [|x a IH]; intros [|y b] i H Hi; cbn in *; try lia. destruct i; [reflexivity|]. apply IH; lia. Qed.
Lemma unfold_len q (f : spectrum) g : length (f g) = (length g - 1)%nat -> length (unfold q f g) = (length g - 1)%nat.
Proof.
  intros H. assert (N : length (ne f g) = (length g - 1)%nat) by (unfold ne; rewrite map2_len; [exact H|now rewrite diff_len]). destruct q; cbn [unfold]; [exact N| |].
  - unfold ene. rewrite map2_len; rewrite map_length, emid_len; [reflexivity|exact N].
  - unfold eene. rewrite map2_len; rewrite map_length, e2s_len; [reflexivity|exact N].
Qed.
Lemma nth_scale k l i : nth i (map (Rmult k) l) 0 = k * nth i l 0.
Proof. replace 0 with (k * 0) at 1 by ring. apply map_nth. Qed.
Lemma unfold_nth q (f : spectrum) g i : length (f g) = (length g - 1)%nat -> (i < length g - 1)%nat -> nth i (unfold q f g) 0 = per_bin q (nth i g 0) (nth (S i) g 0) (nth i (f g) 0).
Proof.
  intros H Hi. assert (L : length (ne f g) = (length g - 1)%nat) by exact (unfold_len NE f g H).
  assert (N : nth i (ne f g) 0 = nth i (f g) 0 / (nth (S i) g 0 - nth i g 0)) by (unfold ne; rewrite map2_nth; [now rewrite diff_nth by exact Hi|now rewrite diff_len|lia]).
  destruct q; cbn [unfold per_bin]; [exact N| |].
  - unfold ene. rewrite map2_nth; [|rewrite map_length, emid_len; exact L|rewrite map_length, emid_len; exact Hi]. now rewrite nth_scale, emid_nth, N by exact Hi.
  - unfold eene. rewrite map2_nth; [|rewrite map_length, e2s_len; exact L|rewrite map_length, e2s_len; exact Hi]. now rewrite nth_scale, e2s_nth, N by exact Hi.
Qed.
Lemma lefts_len g : length (lefts g) = (length g - 1)%nat.
Proof. unfold lefts. induction g as [|a [|b g] IH]; [reflexivity|reflexivity|]. cbn [removelast length] in *. rewrite IH. lia. Qed.
Lemma lefts_nth g : forall i, (i < length g - 1)%nat -> nth i (lefts g) 0 = nth i g 0.
Proof. unfold lefts. induction g as [|a [|b g] IH]; intros i H; [cbn in H; lia|cbn in H; lia|]. change (removelast (a :: b :: g)) with (a :: removelast (b :: g)). destruct i; [reflexivity|]. cbn [nth]. apply IH. cbn in *. lia. Qed.
Lemma rights_len g : length (rights g) = (length g - 1)%nat.
Proof. destruct g; [reflexivity|]. cbn. lia. Qed.
Lemma rights_nth g i : nth i (rights g) 0 = nth (S i) g 0.
Proof. destruct g; [destruct i; reflexivity|reflexivity]. Qed.
Lemma channels_bins g y : length y = (length g - 1)%nat -> channels (lefts g) (rights g) y = map (fun i => (nth i g 0, nth (S i) g 0, nth i y 0)) (seq 0 (length g - 1)).
Proof.
  intros H. unfold channels. rewrite H. apply map_ext_in. intros i Hi. apply in_seq in Hi. rewrite lefts_nth by lia. now rewrite rights_nth.
Qed.
Lemma step_len xl xr y l : plot_step xl xr y = Ok l -> length xl = length y /\ length xr = length y /\ y <> [].
Proof.
  unfold plot_step. destruct (Nat.eqb_spec (length y) (length xl)) as [E1|]; [|discriminate]. destruct (Nat.eqb_spec (length xl) (length xr)) as [E2|]; [|discriminate]. cbn [andb negb]. intros H.
  split; [easy|]. split; [congruence|]. intros ->. cbn in E1. destruct xl; [|discriminate]. destruct xr; [|discriminate]. discriminate.
Qed.
Lemma step_drawn g y l : plot_step (lefts g) (rights g) y = Ok l -> (2 <= length g)%nat /\ length y = (length g - 1)%nat /\ bins_drawn (concat (map pieces l)) g (fun i => nth i y 0).
Proof.
  intros H. destruct (step_len _ _ _ _ H) as (L1 & L2 & N). destruct (C93_step _ _ _ N L1 L2) as (l' & E & P). rewrite E in H. injection H as ->.
  rewrite lefts_len in L1. split; [destruct y; [easy|cbn in L1; lia]|]. split; [easy|]. unfold bins_drawn. rewrite P. now apply channels_bins.
Qed.
Lemma to_jy_nth l v i : nth i (to_jy l v) 0 = nth i v 0 * unit_factor l.
Proof.
  destruct l; cbn [to_jy unit_factor]; try ring. replace 0 with (0 * fv_to_jy) at 1 by ring. rewrite (map_nth (fun x => x * fv_to_jy)). reflexivity.
Qed.
Lemma to_jy_len l v : length (to_jy l v) = length v.
Proof. destruct l; cbn [to_jy]; try reflexivity. apply map_length. Qed.
Lemma drawn_ext s g v v' : (forall i, (i < length g - 1)%nat -> v i = v' i) -> bins_drawn s g v -> bins_drawn s g v'.
Proof. unfold bins_drawn. intros E ->. apply map_ext_in. intros i Hi. apply in_seq in Hi. now rewrite E by lia. Qed.
Lemma last_app_inv (l : list R) d : l <> [] -> exists a, l = a ++ [last l d].
Proof. intros H. destruct (exists_last H) as (a & x & ->). exists a. now rewrite last_last. Qed.
Lemma grid_shown g e0 e1 : increasing g -> exists a b, g = a ++ filter (fun e => Rleb e0 e && Rleb e e1)%bool g ++ b /\ Forall (fun e => e < e0) a /\ Forall (fun e => e0 <= e <= e1) (filter (fun e => Rleb e0 e && Rleb e e1)%bool g) /\ Forall (fun e => e1 < e) b \/ e1 < e0.
Proof.
  intros H. destruct (Rlt_dec e1 e0) as [L|L]; [exists [], []; now right|]. assert (Le : e0 <= e1) by lra. clear L.
  induction H as [|x g S IH Fx]; [exists [], []; left; repeat split; constructor|]. destruct IH as (a & b & [(E & A & B & C)|X]); [|lra]. cbn [filter].
  destruct (Rleb_spec e0 x) as [H0|H0]; [destruct (Rleb_spec x e1) as [H1|H1]|].
  - cbn [andb]. exists [], b. left. assert (a = []) as ->. { destruct a as [|y a]; [reflexivity|]. exfalso. rewrite Forall_forall in Fx. inversion A; subst. specialize (Fx y). rewrite E in Fx. cbn in Fx. specialize (Fx (or_introl eq_refl)). lra. }
    split; [cbn [app]; f_equal; exact E|]. split; [constructor|]. split; [constructor; [lra|exact B]|exact C].
  - cbn [andb]. assert (F : filter (fun e => Rleb e0 e && Rleb e e1)%bool g = []).
    { clear E B. rewrite Forall_forall in Fx. clear -Fx H1. induction g as [|y g IH]; [reflexivity|]. cbn [filter]. destruct (Rleb_spec y e1) as [Y|Y]; [specialize (Fx y (or_introl eq_refl)); lra|]. rewrite Bool.andb_false_r. apply IH. intros z Hz. apply Fx. now right. }
    rewrite F. exists [], (x :: g). left. split; [reflexivity|]. split; [constructor|]. split; [constructor|]. constructor; [lra|]. rewrite Forall_forall in *. intros z Hz. specialize (Fx z Hz). lra.
  - cbn [andb]. exists (x :: a), b. left. split; [cbn [app]; f_equal; exact E|]. split; [constructor; [lra|exact A]|]. now split.
Qed.
(** ** curves *)
Section Curves.
Variables (ft : fit) (q : quantity) (m : cmodel) (g : list R) (params : dict R).
Hypothesis Hm : sized m.
Let at_ (f : dict R -> spectrum) (p : dict R) : list R := unfold q (f (puts p params)) g.
Lemma col_values f rows i : (f = m_total m \/ exists n, In (n, f) (m_parts m)) -> (i < length g - 1)%nat ->
  col (map (at_ f) rows) i = map (fun p => bin_value q g f i (puts p params)) rows.
Proof. intros Hf Hi. unfold col. rewrite map_map. apply map_ext. intros p. unfold at_, bin_value. apply unfold_nth; [now apply Hm|exact Hi]. Qed.
Lemma part_ok comps n f : In (n, f) (parts comps m) -> f = m_total m \/ exists n, In (n, f) (m_parts m).
Proof. destruct comps; cbn [parts]; intros H; [right; now exists n|left; destruct H as [H|[]]; now injection H as _ <-]. Qed.
Lemma quantile_nonempty v p x : quantile v p = Ok x -> v <> [].
Proof. unfold quantile. destruct v; [discriminate|discriminate]. Qed.
Lemma median_rows f rows v : (f = m_total m \/ exists n, In (n, f) (m_parts m)) -> quantile_rows (length g - 1) (map (at_ f) rows) 0.5 = Ok v ->
  forall i, (i < length g - 1)%nat -> is_median (map (fun p => bin_value q g f i (puts p params)) rows) (nth i v 0).
Proof.
  intros Hf H i Hi. apply quantile_rows_nth in H as [_ H]. specialize (H i Hi). rewrite (col_values f rows i Hf Hi) in H. pose proof (quantile_nonempty _ _ _ H) as N.
  destruct (med_spec _ N) as (x & Ex & Mx). unfold med in Ex. rewrite H in Ex. injection Ex as ->. exact Mx.
Qed.
Lemma band_rows f rows c lo hi : (f = m_total m \/ exists n, In (n, f) (m_parts m)) -> 0 < c < 1 -> band (length g - 1) (map (at_ f) rows) c = Ok (lo, hi) ->
  length lo = (length g - 1)%nat /\ length hi = (length g - 1)%nat /\
  forall i, (i < length g - 1)%nat -> central (map (fun p => bin_value q g f i (puts p params)) rows) c (nth i lo 0) (nth i hi 0) /\ nth i lo 0 <= nth i hi 0.
Proof.
  intros Hf Hc H. unfold band in H. apply bind_ok in H as (l & Hl & H). apply bind_ok in H as (h & Hh & H). injection H as -> ->.
  apply quantile_rows_nth in Hl as [Ll Hl]. apply quantile_rows_nth in Hh as [Lh Hh]. split; [exact Ll|]. split; [exact Lh|]. intros i Hi. specialize (Hl i Hi). specialize (Hh i Hi). rewrite (col_values f rows i Hf Hi) in Hl, Hh.
  apply central_of; [exact Hc| |]; [rewrite <- Hl|rewrite <- Hh]; f_equal; lra.
Qed.
End Curves.
Lemma levels_ok cl : forallb (fun c => Rltb 0 c && Rltb c 1)%bool cl = true <-> Forall (fun c => 0 < c < 1) cl.
Proof.
  rewrite forallb_forall, Forall_forall. split; intros H c Hc; specialize (H c Hc).
  - apply andb_prop in H as [A B]. destruct (Rltb_spec 0 c); [|discriminate]. destruct (Rltb_spec c 1); [|discriminate]. now split.
  - destruct (Rltb_spec 0 c); [|lra]. destruct (Rltb_spec c 1); [reflexivity|lra].
Qed.
(** the estimates returned, and the intervals *)
Lemma unfolded_inv ft q m g params comps cl mc : sized m -> unfolded_model ft q m g params comps cl = Ok mc ->
  let ps := parts (comps && has_comps m) m in
  (forall c, cl = Some c -> Forall (fun c => 0 < c < 1) c) /\
  Forall2 (fun part r => fst r = fst part /\ length (snd r) = (length g - 1)%nat /\ forall i, (i < length g - 1)%nat -> estimate ft params (bin_value q g (snd part) i) (nth i (snd r) 0)) ps (fst mc) /\
  match cl, samples ft with
  | Some cl, Some rows => exists ci, snd mc = Some ci /\ Forall2 (fun part r => fst r = fst part /\ bands (length g - 1) (map (fun p => unfold q (snd part (puts p params)) g) rows) cl = Ok (snd r)) ps ci
  | _, _ => snd mc = None
  end.
Proof.
  intros Hm H ps. unfold unfolded_model in H. destruct (match cl with Some cl => negb _ | None => false end) eqn:Ecl; [discriminate|]. split.
  { intros c ->. apply levels_ok. now apply Bool.negb_false_iff in Ecl. }
  cbv zeta in H. fold ps in H. assert (PO : forall n f, In (n, f) ps -> f = m_total m \/ exists n, In (n, f) (m_parts m)) by (intros n f; apply part_ok). clearbody ps.
  assert (OP : forall {V} (F : (dict R -> spectrum) -> res V) l, on_parts F ps = Ok l -> Forall2 (fun part r => fst r = fst part /\ F (snd part) = Ok (snd r)) ps l).
  { intros V F l Hl. unfold on_parts in Hl. apply mapE_inv in Hl. clear -Hl. induction Hl as [|p r ps l E _ IH]; constructor; [|exact IH]. apply bind_ok in E as (v & Ev & E). injection E as <-. now split. }
  assert (F2i : forall {A B} (P Q : A -> B -> Prop) (l : list A) (k : list B), (forall a b, In a l -> P a b -> Q a b) -> Forall2 P l k -> Forall2 Q l k).
  { intros A B P Q l k Im F. induction F as [|a b l k Pa _ IH]; constructor; [apply Im; [now left|exact Pa]|]. apply IH. intros x y Hx. apply Im. now right. }
  destruct ft as [mle boot|rows].
  - apply bind_ok in H as (model & Hmod & H). apply OP in Hmod.
    assert (EM : Forall2 (fun part r => fst r = fst part /\ length (snd r) = (length g - 1)%nat /\ forall i, (i < length g - 1)%nat -> estimate (FitMle mle boot) params (bin_value q g (snd part) i) (nth i (snd r) 0)) ps model).
    { eapply F2i; [|exact Hmod]. intros [n f] [n' v] Hin (E1 & E2). cbn [fst snd] in *. injection E2 as <-. split; [exact E1|]. specialize (PO n f Hin). split; [apply unfold_len; now apply Hm|].
      intros i Hi. cbn [estimate]. unfold bin_value. apply unfold_nth; [now apply Hm|exact Hi]. }
    destruct cl as [cl|]; cbn [samples]; [destruct boot as [rows|]|].
    + apply bind_ok in H as (ci & Hci & H). injection H as <-. cbn [fst snd]. split; [exact EM|]. exists ci. split; [reflexivity|]. apply OP in Hci. exact Hci.
    + injection H as <-. now split.
    + injection H as <-. cbn [fst snd]. destruct boot; now split.
  - apply bind_ok in H as (model & Hmod & H). apply OP in Hmod.
    assert (EM : Forall2 (fun part r => fst r = fst part /\ length (snd r) = (length g - 1)%nat /\ forall i, (i < length g - 1)%nat -> estimate (FitPost rows) params (bin_value q g (snd part) i) (nth i (snd r) 0)) ps model).
    { eapply F2i; [|exact Hmod]. intros [n f] [n' v] Hin (E1 & E2). cbn [fst snd] in *. split; [exact E1|]. specialize (PO n f Hin). split; [now apply quantile_rows_nth in E2|].
      cbn [estimate]. now apply (median_rows q m g params Hm). }
    destruct cl as [cl|]; cbn [samples].
    + apply bind_ok in H as (ci & Hci & H). injection H as <-. cbn [fst snd]. split; [exact EM|]. exists ci. split; [reflexivity|]. apply OP in Hci. exact Hci.
    + destruct (comps && has_comps m)%bool; [|discriminate]. injection H as <-. now split.
Qed.
Lemma curve_of ft q m g params l f r line : sized m -> (f = m_total m \/ exists n, In (n, f) (m_parts m)) -> length r = (length g - 1)%nat ->
  (forall i, (i < length g - 1)%nat -> estimate ft params (bin_value q g f i) (nth i r 0)) -> plot_step (lefts g) (rights g) (to_jy l r) = Ok line ->
  (2 <= length g)%nat /\ exists v, bins_drawn (concat (map pieces line)) g (fun i => v i * unit_factor l) /\ forall i, (i < length g - 1)%nat -> estimate ft params (bin_value q g f i) (v i).
Proof.
  intros Hm Hf Lr Es H. apply step_drawn in H as (G2 & _ & D). split; [exact G2|]. exists (fun i => nth i r 0). split; [|exact Es]. eapply drawn_ext; [|exact D]. intros i _. apply to_jy_nth.
Qed.
Lemma F2_chain {A B C} (P : A -> B -> Prop) (E : B -> C -> Prop) (Q : A -> C -> Prop) la : forall lb lc, (forall a b c, In a la -> P a b -> E b c -> Q a c) -> Forall2 P la lb -> Forall2 E lb lc -> Forall2 Q la lc.
Proof.
  induction la as [|a la IH]; intros lb lc H F1 F2; inversion F1; subst; inversion F2; subst; constructor; [eapply H; eauto; now left|]. eapply IH; eauto. intros. eapply H; eauto. now right.
Qed.
Lemma draw_shown ft cfg q l params egrid d w : sized (pd_model d) -> increasing (pd_egrid d) -> draw_data ft cfg q l params egrid d = Ok w -> shown ft cfg q l params egrid d w.
Proof.
  intros Hm Hg H. unfold draw_data in H. apply bind_ok in H as (g0 & Hg0 & H). cbv zeta in H. set (g := match get egrid (pd_name d) with Some g => g | None => g0 end) in *.
  apply bind_ok in H as (mc & Hmc & H). apply bind_ok in H as (v & Hv & H). apply bind_ok in H as (line & Hline & H). apply bind_ok in H as (rib & Hrib & H). apply bind_ok in H as (comps & Hcomps & H).
  injection H as <-. unfold shown. cbn [w_name w_line w_bands w_comps]. split; [reflexivity|]. exists g.
  pose proof (unfolded_inv _ _ _ _ _ _ _ _ Hm Hmc) as (CL & EM & BM). cbn [andb parts] in EM, BM.
  inversion EM as [|? [n0 v0] ? tlm (E1 & E2 & E3) EM' Ea Eb]; subst. inversion EM' as [|]; subst. cbn [fst snd] in *. subst n0. rewrite <- Eb in Hv. cbn in Hv. injection Hv as ->.
  destruct (curve_of ft q (pd_model d) g params l _ v line Hm (or_introl eq_refl) E2 E3 Hline) as (G2 & Cv).
  split.
  { unfold grid_used, g. destruct (get egrid (pd_name d)) as [g'|] eqn:Eg; [reflexivity|]. unfold g in G2. unfold shown_grid in Hg0. destruct (pd_emin d) as [|e0 el]; [discriminate|]. destruct (pd_emax d) as [|eh et] eqn:Emax; [discriminate|].
    rewrite <- Emax in *. injection Hg0 as <-. destruct (last_app_inv (pd_emax d) 0) as (ehs & Eh); [rewrite Emax; discriminate|]. set (e1 := last (pd_emax d) 0) in *. exists e0, el, e1, ehs. split; [reflexivity|]. split; [exact Eh|].
    destruct (grid_shown (pd_egrid d) e0 e1 Hg) as (a & b & [X|X]); [exists a, b; exact X|]. exfalso. destruct (filter _ (pd_egrid d)) as [|x ?] eqn:Ef in G2; [cbn in G2; lia|].
    assert (In x (filter (fun e => Rleb e0 e && Rleb e e1)%bool (pd_egrid d))) as Ix by (rewrite Ef; now left). apply filter_In in Ix as [_ Ix]. apply andb_prop in Ix as [A B]. destruct (Rleb_spec e0 x); [|discriminate]. destruct (Rleb_spec x e1); [lra|discriminate]. }
  split; [exact G2|]. cbv zeta. split; [exact Cv|]. split.
  - destruct (samples ft) as [rows|].
    + destruct BM as (ci & Eci & BM). rewrite Eci in Hrib. inversion BM as [|? [n1 b] ? tlb (B1 & B2) BM' Ec Ed]; subst. inversion BM' as [|]; subst. cbn [fst snd] in *. subst n1. cbn [get str_eqb] in Hrib. cbn in Hrib.
      apply bind_ok in Hrib as (rb & Hrb & Hrib). injection Hrib as <-. exists rb. split; [reflexivity|]. apply mapE_inv in B2. specialize (CL _ eq_refl).
      assert (LB : length b = length (c_cl cfg)) by (clear -B2; induction B2; cbn; lia).
      assert (WB : Forall (fun lh : list R * list R => length (fst lh) = (length g - 1)%nat /\ length (snd lh) = (length g - 1)%nat) b).
      { clear -B2 CL Hm. induction B2 as [|c [lo hi] cl b E _ IH]; constructor; [|apply IH; now inversion CL]. inversion CL; subst. cbn [fst snd]. destruct (band_rows q (pd_model d) g params Hm _ rows c lo hi (or_introl eq_refl) ltac:(assumption) E) as (A & B & _). now split. }
      set (sc := fun lh : list R * list R => (to_jy l (fst lh), to_jy l (snd lh))) in *.
      destruct (C93_ribbon (lefts g) (rights g) (map sc b)) as (rb' & Er & _ & Q).
      { intros X. apply (f_equal (@length R)) in X. rewrite lefts_len in X. cbn in X. lia. }
      { now rewrite lefts_len, rights_len. }
      { intros X. rewrite X in Hrb. discriminate. }
      { rewrite Forall_map. eapply Forall_impl; [|exact WB]. intros [lo hi] (A & B). cbn [sc fst snd] in *. rewrite !to_jy_len, lefts_len. now split. }
      rewrite Er in Hrb. injection Hrb as ->. intros k c Hk. assert (Hc : 0 < c < 1) by (rewrite Forall_forall in CL; apply CL; now apply nth_error_In in Hk). split; [exact Hc|].
      assert (Kl : (k < length b)%nat) by (rewrite LB; apply nth_error_Some; congruence).
      destruct (nth_error b k) as [[lo hi]|] eqn:Ek; [|apply nth_error_None in Ek; lia].
      assert (Eb2 : band (length g - 1) (map (fun p => unfold q (m_total (pd_model d) (puts p params)) g) rows) c = Ok (lo, hi)).
      { clear -B2 Hk Ek. revert k Hk Ek. induction B2 as [|c' x cl b E _ IH]; intros [|k] Hk Ek; cbn in *; try discriminate; [injection Hk as ->; injection Ek as ->; exact E|now apply (IH k)]. }
      destruct (band_rows q (pd_model d) g params Hm _ rows c lo hi (or_introl eq_refl) Hc Eb2) as (L1 & L2 & CE).
      exists (fun i => nth i lo 0), (fun i => nth i hi 0).
      assert (En : forall r0, nth k (map sc b) (sc r0) = sc (lo, hi)) by (intros r0; rewrite map_nth; f_equal; now apply nth_error_nth).
      split; [|split; [|exact CE]].
      * intros z. destruct (Q k ltac:(rewrite map_length; exact Kl) z (sc ([], []))) as [Q1 _]. rewrite En in Q1. unfold bins_drawn. rewrite Q1. cbn [sc fst]. rewrite channels_bins by (rewrite to_jy_len; exact L1). apply map_ext. intros i. now rewrite to_jy_nth.
      * intros z. destruct (Q k ltac:(rewrite map_length; exact Kl) z (sc ([], []))) as [_ Q2]. rewrite En in Q2. unfold bins_drawn. rewrite Q2. cbn [sc snd]. rewrite channels_bins by (rewrite to_jy_len; exact L2). apply map_ext. intros i. now rewrite to_jy_nth.
    + rewrite BM in Hrib. now injection Hrib as <-.
  - unfold has_comps in Hcomps. destruct (c_comps cfg && (2 <=? length (m_parts (pd_model d)))%nat)%bool eqn:Ec; [|now injection Hcomps as <-].
    apply bind_ok in Hcomps as (mc2 & Hmc2 & Hcomps). pose proof (unfolded_inv _ _ _ _ _ _ _ _ Hm Hmc2) as (_ & EC & _). assert (HC : has_comps (pd_model d) = true) by (unfold has_comps; now apply andb_prop in Ec).
    rewrite HC in EC. cbn [andb parts] in EC. apply mapE_inv in Hcomps.
    assert (PO : forall n f, In (n, f) (m_parts (pd_model d)) -> f = m_total (pd_model d) \/ exists n, In (n, f) (m_parts (pd_model d))) by (intros n f X; right; now exists n).
    eapply (F2_chain (fun (part : str * (dict R -> spectrum)) (r : str * list R) => fst r = fst part /\ length (snd r) = (length g - 1)%nat /\ forall i, (i < length g - 1)%nat -> estimate ft params (bin_value q g (snd part) i) (nth i (snd r) 0))); [|exact EC|exact Hcomps].
    intros [n f] [n' r] c Hin (C1 & C2 & C3) Hc. cbn [fst snd] in *. apply bind_ok in Hc as (p & Hp & Hc). injection Hc as <-. cbn [fst snd]. split; [exact C1|]. apply (curve_of ft q (pd_model d) g params l f r p Hm (PO n f Hin) C2 C3 Hp).
Qed.
(** each data set is drawn once, in order: its line, its bands and its components are those of the estimates *)
Theorem C104_curves : forall ft cfg data q params egrid Fv vFv FvJy l ds, Forall (fun d => sized (pd_model d) /\ increasing (pd_egrid d)) data ->
  plot_unfolded ft cfg data q params egrid Fv vFv FvJy = Ok (l, ds) ->
  (FvJy = true -> q = ENE) /\ l = label_of q Fv vFv FvJy /\ (l = LFvJy <-> FvJy = true) /\
  exists ps, Forall2 (fun kv k => fst kv = fst k /\ snd kv = Some (snd k)) params ps /\ Forall2 (shown ft cfg q l ps egrid) data ds.
Proof.
  intros ft cfg data q params egrid Fv vFv FvJy l ds F H. unfold plot_unfolded in H. apply bind_ok in H as (ps & Hps & H).
  destruct (FvJy && negb _)%bool eqn:Ef; [discriminate|]. cbv zeta in H. apply bind_ok in H as (ds' & Hds & H). injection H as <- <-.
  assert (EQ : FvJy = true -> q = ENE) by (intros ->; destruct q; [discriminate|reflexivity|discriminate]). split; [exact EQ|]. split; [reflexivity|]. split.
  { unfold label_of. destruct q, FvJy, Fv, vFv; (split; [|]; try easy; try (intros _; now specialize (EQ eq_refl))). }
  exists ps. split.
  - unfold scalars in Hps. apply mapE_inv in Hps. clear -Hps. induction Hps as [|kv k params ps E _ IH]; constructor; [|exact IH]. apply bind_ok in E as (v & Ev & E). injection E as <-. cbn [fst snd]. split; [reflexivity|]. unfold opt_err in Ev. destruct (snd kv); [now injection Ev as ->|discriminate].
  - apply mapE_inv in Hds. clear -F Hds. induction Hds as [|d w data ds E _ IH]; constructor; [inversion F; subst; now apply draw_shown|apply IH; now inversion F].
Qed.
Print Assumptions C104_curves.

(** ** what raises *)
Lemma quantile_rows_defined w rows p : rows <> [] -> 0 <= p <= 1 -> exists l, quantile_rows w rows p = Ok l.
Proof.
  intros N Hp. unfold quantile_rows. apply mapE_def. intros j _. destruct (quantile_defined (col rows j) p) as (x & E); [destruct rows; [easy|discriminate]|exact Hp|]. now exists x.
Qed.
Lemma on_parts_defined {V} (F : (dict R -> spectrum) -> res V) ps : (forall n f, In (n, f) ps -> exists v, F f = Ok v) -> exists l, on_parts F ps = Ok l.
Proof. intros H. unfold on_parts. apply mapE_def. intros [n f] Hin. destruct (H n f Hin) as (v & E). cbn [fst snd]. rewrite E. now exists (n, v). Qed.
Lemma bands_defined w rows cl : rows <> [] -> Forall (fun c => 0 < c < 1) cl -> exists l, bands w rows cl = Ok l.
Proof.
  intros N F. unfold bands. apply mapE_def. intros c Hc. rewrite Forall_forall in F. specialize (F c Hc). unfold band. destruct (quantile_rows_defined w rows (0.5 + c * -0.5) N) as (lo & ->); [lra|]. cbn [bind]. destruct (quantile_rows_defined w rows (0.5 + c * 0.5) N) as (hi & ->); [lra|]. now eexists.
Qed.
Definition has_samples (ft : fit) : Prop := match samples ft with Some rows => rows <> [] | None => True end.
Lemma unfolded_defined ft q m g params comps cl : has_samples ft -> (forall c, cl = Some c -> Forall (fun c => 0 < c < 1) c) -> (cl <> None \/ (comps && has_comps m)%bool = true \/ exists mle boot, ft = FitMle mle boot) ->
  exists mc, unfolded_model ft q m g params comps cl = Ok mc.
Proof.
  intros HS HC HN. unfold unfolded_model. assert (E : match cl with Some cl => negb (forallb (fun c => Rltb 0 c && Rltb c 1)%bool cl) | None => false end = false).
  { destruct cl as [cl|]; [|reflexivity]. apply Bool.negb_false_iff, levels_ok. now apply HC. }
  rewrite E. cbv zeta. destruct ft as [mle boot|rows]; cbn [samples has_samples] in HS.
  - destruct (on_parts_defined (fun f => Ok (unfold q (f (puts mle params)) g)) (parts (comps && has_comps m) m)) as (l & ->); [now eexists|]. cbn [bind].
    destruct cl as [cl|]; [|destruct boot; now eexists]. destruct boot as [rows|]; [|now eexists].
    edestruct (on_parts_defined (V := list (list R * list R))) as (ci & Eci); [|rewrite Eci; cbn [bind]; now eexists]. intros n f _. apply bands_defined; [unfold has_samples in HS; cbn in HS; destruct rows; [easy|discriminate]|now apply HC].
  - unfold has_samples in HS. cbn in HS. assert (NR : forall f, map (fun p => unfold q (f (puts p params)) g) rows <> []) by (intros f; destruct rows; [easy|discriminate]).
    edestruct (on_parts_defined (V := list R)) as (l & El); [|rewrite El; cbn [bind]]; [intros n f _; apply quantile_rows_defined; [apply NR|lra]|].
    destruct cl as [cl|].
    + edestruct (on_parts_defined (V := list (list R * list R))) as (ci & Eci); [|rewrite Eci; cbn [bind]; now eexists]. intros n f _. apply bands_defined; [apply NR|now apply HC].
    + destruct HN as [X|[->|(mle & boot & X)]]; [easy|now eexists|discriminate].
Qed.
(** the grid used when the user gives none *)
Definition default_grid (d : pdata) (g : list R) : Prop :=
  exists e0 el e1 eh, pd_emin d = e0 :: el /\ pd_emax d = eh ++ [e1] /\ g = filter (fun e => Rleb e0 e && Rleb e e1)%bool (pd_egrid d).
Lemma shown_grid_spec d g : shown_grid (pd_egrid d) (pd_emin d) (pd_emax d) = Ok g <-> default_grid d g.
Proof.
  unfold default_grid. split.
  - unfold shown_grid. destruct (pd_emin d) as [|e0 el]; [discriminate|]. destruct (pd_emax d) as [|eh et] eqn:Em; [discriminate|]. rewrite <- Em. intros H. injection H as <-. destruct (last_app_inv (pd_emax d) 0) as (a & Ea); [rewrite Em; discriminate|].
    exists e0, el, (last (pd_emax d) 0), a. split; [reflexivity|]. split; [exact Ea|reflexivity].
  - intros (e0 & el & e1 & eh & A & B & ->). rewrite A, B. unfold shown_grid. destruct (eh ++ [e1]) as [|z zs] eqn:E; [destruct eh; discriminate|]. rewrite <- E. now rewrite last_last.
Qed.
(** with two photon energies or more for each data set, the plot is made *)
Theorem C104_defined : forall ft cfg data q params egrid Fv vFv FvJy, has_samples ft -> c_cl cfg <> [] -> Forall (fun c => 0 < c < 1) (c_cl cfg) ->
  Forall (fun d => sized (pd_model d) /\ exists g0, default_grid d g0 /\ match get egrid (pd_name d) with Some g => (2 <= length g)%nat | None => (2 <= length g0)%nat end) data ->
  (Forall (fun kv => snd kv <> None) params /\ (FvJy = true -> q = ENE) -> exists r, plot_unfolded ft cfg data q params egrid Fv vFv FvJy = Ok r) /\
  (~ (Forall (fun kv => snd kv <> None) params /\ (FvJy = true -> q = ENE)) -> plot_unfolded ft cfg data q params egrid Fv vFv FvJy = Err ValueError).
Proof.
  intros ft cfg data q params egrid Fv vFv FvJy HS Nc HC F. unfold plot_unfolded. split.
  - intros [Sc EQ]. destruct (mapE_def (fun kv : str * option R => bind (opt_err ValueError (snd kv)) (fun v => Ok (fst kv, v))) params) as (ps & Eps).
    { intros kv Hin. rewrite Forall_forall in Sc. specialize (Sc kv Hin). destruct (snd kv); [now eexists|easy]. }
    unfold scalars. rewrite Eps. cbn [bind]. replace (FvJy && negb match q with ENE => true | _ => false end)%bool with false by (destruct FvJy; [now rewrite EQ|reflexivity]). cbv zeta.
    destruct (mapE_def (draw_data ft cfg q (label_of q Fv vFv FvJy) ps egrid) data) as (ds & ->); [|now eexists]. intros d Hd. rewrite Forall_forall in F. destruct (F d Hd) as (Hm & g0 & Hg0 & G2).
    unfold draw_data. rewrite (proj2 (shown_grid_spec d g0) Hg0). cbn [bind]. cbv zeta. set (g := match get egrid (pd_name d) with Some g => g | None => g0 end).
    assert (L2 : (2 <= length g)%nat) by (unfold g; destruct (get egrid (pd_name d)); exact G2). set (l := label_of q Fv vFv FvJy). clearbody g l. clear G2 Hg0 g0.
    assert (ST : forall r, length r = (length g - 1)%nat -> exists line, plot_step (lefts g) (rights g) (to_jy l r) = Ok line).
    { intros r Lr. destruct (C93_step (lefts g) (rights g) (to_jy l r)) as (line & E & _); [intros X; apply (f_equal (@length R)) in X; rewrite to_jy_len in X; cbn in X; lia|rewrite to_jy_len, lefts_len; lia|rewrite to_jy_len, rights_len; lia|]. now exists line. }
    destruct (unfolded_defined ft q (pd_model d) g ps false (Some (c_cl cfg)) HS) as (mc & Emc); [intros c X; now injection X as <-|left; discriminate|]. rewrite Emc. cbn [bind].
    pose proof (unfolded_inv _ _ _ _ _ _ _ _ Hm Emc) as (CL & EM & BM). cbn [andb parts] in EM, BM.
    inversion EM as [|? [n0 v0] ? tlm (E1 & E2 & E3) EM' Ea Eb]; subst. inversion EM' as [|]; subst. cbn [fst snd] in E1, E2. subst n0. cbn [get str_eqb opt_err]. cbn [get opt_err bind]. replace (str_eqb [] []) with true by reflexivity. cbn [opt_err bind].
    destruct (ST v0 E2) as (line & ->). cbn [bind].
    assert (RB : exists rib, match snd mc with None => Ok None | Some ci => bind (opt_err KeyError (get ci [])) (fun b => bind (plot_ribbon (lefts g) (rights g) (map (fun lh => (to_jy l (fst lh), to_jy l (snd lh))) b)) (fun r => Ok (Some r))) end = Ok rib).
    { destruct (samples ft) as [rows|].
      - destruct BM as (ci & -> & BM). inversion BM as [|? [n1 b] ? tlb (B1 & B2) BM' Ec Ed]; subst. inversion BM' as [|]; subst. cbn [fst snd] in B1, B2. subst n1. cbn [get]. replace (str_eqb [] []) with true by reflexivity. cbn [opt_err bind].
        apply mapE_inv in B2. destruct (C93_ribbon (lefts g) (rights g) (map (fun lh : list R * list R => (to_jy l (fst lh), to_jy l (snd lh))) b)) as (rb & -> & _); [| | | |now eexists].
        + intros X. apply (f_equal (@length R)) in X. rewrite lefts_len in X. cbn in X. lia.
        + now rewrite lefts_len, rights_len.
        + intros X. destruct b; [|discriminate]. inversion B2 as [E|]. now rewrite <- E in Nc.
        + rewrite Forall_map. clear -B2 HC Hm. induction B2 as [|c [lo hi] cl b E _ IH]; constructor; [|apply IH; now inversion HC]. inversion HC; subst. cbn [fst snd]. destruct (band_rows q (pd_model d) g ps Hm _ rows c lo hi (or_introl eq_refl) ltac:(assumption) E) as (A & B & _). rewrite !to_jy_len, lefts_len. now split.
      - rewrite BM. now eexists. }
    destruct RB as (rib & ->). cbn [bind].
    destruct (c_comps cfg && has_comps (pd_model d))%bool eqn:Ec; [|now eexists]. apply andb_prop in Ec as [_ Ec].
    destruct (unfolded_defined ft q (pd_model d) g ps true None HS) as (mc2 & Emc2); [easy|right; left; now rewrite Ec|]. rewrite Emc2. cbn [bind]. pose proof (unfolded_inv _ _ _ _ _ _ _ _ Hm Emc2) as (_ & EC & _).
    edestruct (mapE_def (fun c : str * list R => bind (plot_step (lefts g) (rights g) (to_jy l (snd c))) (fun p => Ok (fst c, p))) (fst mc2)) as (cs & ->); [|now eexists].
    intros c Hc. apply (F2_in_r _ _ _ _ EC) in Hc as (part & _ & _ & Lc & _). destruct (ST (snd c) Lc) as (p & ->). now eexists.
  - intros N. destruct (scalars params) as [ps|e] eqn:Eps.
    + cbn [bind]. destruct (FvJy && negb match q with ENE => true | _ => false end)%bool eqn:Ef; [reflexivity|]. exfalso. apply N. split.
      * unfold scalars in Eps. apply mapE_inv in Eps. clear -Eps. induction Eps as [|kv k params ps E _ IH]; constructor; [|exact IH]. intros X. rewrite X in E. discriminate.
      * intros ->. destruct q; [discriminate|reflexivity|discriminate].
    + cbn [bind]. f_equal. unfold scalars in Eps. clear -Eps. induction params as [|kv params IH]; [discriminate|]. cbn [mapE] in Eps. destruct (snd kv) as [v|]; [|cbn in Eps; congruence]. cbn [opt_err bind] in Eps.
      destruct (mapE _ params) as [|e'] eqn:E; [discriminate|]. cbn [bind] in Eps. injection Eps as ->. now apply IH.
Qed.
Print Assumptions C104_defined.
(** when the channels of a data set cover less than two photon energies, the plot fails *)
Theorem C104_narrow_refuted : forall ft cfg d data q egrid Fv vFv FvJy g, has_samples ft -> Forall (fun c => 0 < c < 1) (c_cl cfg) -> (FvJy = true -> q = ENE) ->
  sized (pd_model d) -> get egrid (pd_name d) = None -> default_grid d g -> (length g < 2)%nat -> plot_unfolded ft cfg (d :: data) q [] egrid Fv vFv FvJy = Err IndexError.
Proof.
  intros ft cfg d data q egrid Fv vFv FvJy g HS HC EQ Hm Eg Hg L. unfold plot_unfolded. cbn [scalars mapE bind]. replace (FvJy && negb match q with ENE => true | _ => false end)%bool with false by (destruct FvJy; [now rewrite EQ|reflexivity]). cbv zeta.
  cbn [mapE]. unfold draw_data at 1. rewrite (proj2 (shown_grid_spec d g) Hg), Eg. cbn [bind]. cbv zeta.
  destruct (unfolded_defined ft q (pd_model d) g [] false (Some (c_cl cfg)) HS) as (mc & Emc); [intros c X; now injection X as <-|left; discriminate|]. rewrite Emc. cbn [bind].
  pose proof (unfolded_inv _ _ _ _ _ _ _ _ Hm Emc) as (_ & EM & _). cbn [andb parts] in EM.
  inversion EM as [|? [n0 v0] ? tlm (E1 & E2 & E3) EM' Ea Eb]; subst. inversion EM' as [|]; subst. cbn [fst snd] in E1, E2. subst n0. cbn [get]. replace (str_eqb [] []) with true by reflexivity. cbn [opt_err bind].
  assert (v0 = []) as -> by (destruct v0; [reflexivity|cbn in E2; lia]). assert (lefts g = []) as -> by (destruct g as [|? [|]]; [reflexivity|reflexivity|cbn in L; lia]). assert (rights g = []) as -> by (destruct g as [|? [|]]; [reflexivity|reflexivity|cbn in L; lia]).
  replace (to_jy _ []) with (@nil R) by (now destruct (label_of q Fv vFv FvJy)). reflexivity.
Qed.
Print Assumptions C104_narrow_refuted.
(** without levels, the unfolded model of a posterior cannot be had, while that of a fit, and the components of either, can *)
Theorem C104_no_level_refuted : forall rows mle boot q m g params, rows <> [] ->
  unfolded_model (FitPost rows) q m g params false None = Err TypeError /\
  (exists mc, unfolded_model (FitMle mle boot) q m g params false None = Ok mc) /\
  (has_comps m = true -> exists mc, unfolded_model (FitPost rows) q m g params true None = Ok mc).
Proof.
  intros rows mle boot q m g params N. split; [|split].
  - unfold unfolded_model. cbn [andb parts]. cbv zeta. unfold on_parts. cbn [mapE fst snd]. edestruct (quantile_rows_defined (length g - 1)) as (v & Ev); [| |rewrite Ev; reflexivity]; [destruct rows; [easy|discriminate]|lra].
  - unfold unfolded_model. cbv zeta. cbn [andb]. destruct (on_parts_defined (fun f => Ok (unfold q (f (puts mle params)) g)) (parts false m)) as (l & ->); [now eexists|]. cbn [bind]. now destruct boot; eexists.
  - intros H. apply unfolded_defined; [exact N|easy|]. right. left. now rewrite H.
Qed.
Print Assumptions C104_no_level_refuted.
(** the values in Jy: h = 6.62607015e-34 J s, 1 keV = 1.602176634e-16 J, 1 Jy = 1e-26 W/m^2/Hz and 1 erg/cm^2 = 1e-3 J/m^2 *)
Theorem C104_jy : Rabs (fv_to_jy - (1 / 10 ^ 3) * ((662607015 / 10 ^ 42) / (1602176634 / 10 ^ 25)) / (1 / 10 ^ 26)) <= 2 / 10 ^ 10.
Proof. unfold fv_to_jy. apply Rabs_le. split; lra. Qed.
Print Assumptions C104_jy.
(** asking for E N(E) both in erg and in Jy shows a single panel, in Jy *)
Theorem C104_units_refuted : exists text, In (s2l "ene") (resplit text) /\ In (s2l "FvJy") (resplit text) /\ forall posterior cfg, exists l a ps,
  ask posterior text = Ok l /\ In (s2l "spec", ASpec a) l /\ panels cfg a = Ok ps /\ ps = [PModel ENE LFvJy].
Proof.
  exists (s2l "ene FvJy"). split; [now left|]. split; [right; now left|]. intros posterior cfg. exists [(s2l "spec", ASpec (spec_of [s2l "ene"; s2l "FvJy"]))], (spec_of [s2l "ene"; s2l "FvJy"]), [PModel ENE LFvJy]. split; [destruct posterior; vm_compute; reflexivity|]. split; [now left|]. split; reflexivity.
Qed.
Print Assumptions C104_units_refuted.
(** the spectral plot with nothing in it is an error *)
Theorem C104_nothing : forall cfg a, panels cfg a = Err ValueError <-> (a_data a = false /\ a_ne a = false /\ a_ene a = false /\ a_eene a = false /\ a_res a = None).
Proof.
  intros cfg a. unfold panels. cbv zeta. split.
  - destruct (a_data a); [discriminate|]. destruct (a_ne a); [discriminate|]. destruct (a_ene a); [discriminate|]. destruct (a_eene a); [discriminate|]. destruct (a_res a) as [[r|]|]; [discriminate|discriminate|]. auto.
  - intros (-> & -> & -> & -> & ->). reflexivity.
Qed.
Print Assumptions C104_nothing.

(** ** examples *)
Example C104_request_case : spaced (s2l "data") [(s2l "  ", s2l "vFv"); (s2l " ", s2l "rd"); (s2l " ", s2l "r"); (s2l " ", s2l "corner")] /\
  exists a, figures_mle (s2l "data  vFv rd r corner") = Ok [(s2l "spec", ASpec a); (s2l "corner", AOther)] /\ panels default_config a = Ok [PData; PModel EENE LvFv; PResiduals RQ].
Proof.
  split.
  - assert (W : forall s, forallb (fun c => negb (is_space c)) s = true -> Forall (fun c => ~ blank c) s).
    { intros s H. apply Forall_forall. intros c Hc B. rewrite forallb_forall in H. specialize (H c Hc). rewrite (space_true c B) in H. discriminate. }
    assert (B : forall s, forallb is_space s = true -> Forall blank s) by (intros s H; apply Forall_forall; intros c Hc; rewrite forallb_forall in H; apply blank_spec; now apply H).
    split; [split; [discriminate|now apply W]|]. repeat (apply Forall_cons; [split; (split; [discriminate|]); [now apply B|now apply W]|]). constructor.
  - exists (spec_of (map s2l ["data"; "vFv"; "rd"; "r"; "corner"]%string)). split; [vm_compute; reflexivity|reflexivity].
Qed.
Definition ex_flat : cmodel := {| m_id := 0; m_total := fun p g => map (fun d => d * match get p (s2l "K") with Some k => k | None => 0 end) (diff g); m_parts := [] |}.
Definition ex_pd : pdata := {| pd_name := s2l "A"; pd_egrid := [1; 2; 3; 4; 5]; pd_emin := [1.5; 2.5]; pd_emax := [2.5; 4.5]; pd_model := ex_flat |}.
Lemma ex_sized : sized ex_flat.
Proof. intros f [->|(n & [])] p g. cbn [ex_flat m_total]. now rewrite map_length, diff_len. Qed.
Example C104_curve_case : exists l ds, plot_unfolded (FitMle [(s2l "K", 2)] (Some [[(s2l "K", 1)]; [(s2l "K", 3)]])) default_config [ex_pd] ENE [] [] false false true = Ok (l, ds) /\ l = LFvJy /\ increasing (pd_egrid ex_pd) /\ sized (pd_model ex_pd).
Proof.
  assert (HS : has_samples (FitMle [(s2l "K", 2)] (Some [[(s2l "K", 1)]; [(s2l "K", 3)]]))) by discriminate.
  destruct (C104_defined (FitMle [(s2l "K", 2)] (Some [[(s2l "K", 1)]; [(s2l "K", 3)]])) default_config [ex_pd] ENE [] [] false false true HS) as [D _].
  - discriminate.
  - repeat constructor; lra.
  - constructor; [|constructor]. split; [exact ex_sized|]. eexists. split; [exists 1.5, [2.5], 4.5, [2.5]; split; [reflexivity|split; reflexivity]|]. cbn [get ex_pd pd_name pd_egrid filter].
    destruct (Rleb_spec 1.5 2); [|lra]. destruct (Rleb_spec 2 4.5); [|lra]. destruct (Rleb_spec 1.5 3); [|lra]. destruct (Rleb_spec 3 4.5); [|lra]. destruct (Rleb_spec 1.5 1); [lra|]. cbn [andb]. destruct (_ && _)%bool, (_ && _)%bool; cbn; lia.
  - destruct D as ([l ds] & E); [split; [constructor|reflexivity]|]. exists l, ds. split; [exact E|]. split; [|split; [repeat constructor; cbn; lra|exact ex_sized]].
    assert (F : Forall (fun d => sized (pd_model d) /\ increasing (pd_egrid d)) [ex_pd]) by (constructor; [split; [exact ex_sized|repeat constructor; cbn; lra]|constructor]).
    now destruct (C104_curves _ _ _ _ _ _ _ _ _ _ _ F E) as (_ & _ & [_ X] & _); apply X.
Qed.
Example C104_narrow_case : default_grid {| pd_name := s2l "A"; pd_egrid := [1; 2; 3]; pd_emin := [1.2]; pd_emax := [1.8]; pd_model := ex_flat |} [].
Proof.
  exists 1.2, [], 1.8, []. split; [reflexivity|]. split; [reflexivity|]. cbn [pd_egrid filter]. destruct (Rleb_spec 1.2 1); [lra|]. destruct (Rleb_spec 2 1.8); [lra|]. destruct (Rleb_spec 3 1.8); [lra|]. now rewrite !Bool.andb_false_r.
Qed.
