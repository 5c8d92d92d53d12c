(** Concrete observations used as non-vacuity witnesses and counterexamples. *)
From Verif Require Import RBase BaseFacts Grouping Scale ScaleProofs Significance Data DataProofs DataState DataFacts DataBad.

(** decide the real comparisons left in the goal *)
Ltac rdec1 := match goal with
  | |- context [Rltb ?a ?b] => first [rewrite (proj2 (Rltb_true a b)) by lra | rewrite (proj2 (Rltb_false a b)) by lra]
  | |- context [Rleb ?a ?b] => first [rewrite (proj2 (Rleb_true a b)) by lra | rewrite (proj2 (Rleb_false a b)) by lra]
  | |- context [Reqb ?a ?b] => destruct (Reqb_spec a b); [try (exfalso; lra)|try (exfalso; lra)]
  end.
Ltac rdec := repeat (rdec1; cbn [andb orb negb]).

(** a Poisson spectrum of 4 channels; channel 2 is flagged bad (quality 2) *)
Definition exq : list Z := [0; 0; 2; 0]%Z.
Definition ex_spec (c2 : R) : spectrum :=
  {| s_counts := [3; 1; c2; 2]; s_errors := [1; 1; 1; 1]; s_poisson := true; s_exposure := 10; s_quality := exq;
     s_grouping := [1; -1; 1; 1]%Z; s_area := [1; 1; 1; 1]; s_back := [1; 1; 1; 1]; s_net_opt := None |}.
Lemma ex_spec_ok c2 : 0 <= c2 ->
  mk_spectrum [3; 1; c2; 2] [1; 1; 1; 1] true 10 (Some exq) (Some [-1; -1; 1; 1]%Z) (Scal 1) (Scal 1) None (Scal 0) = Ok (ex_spec c2).
Proof.
  intros H. unfold mk_spectrum, exq, reset_zero.
  cbn [length Nat.eqb negb arr_ok arr_get repeat forallb existsb andb orb zip2 combine fst snd quality_values].
  cbn [Z.eqb Pos.eqb]. rdec. reflexivity.
Qed.
Definition ex_back : spectrum :=
  {| s_counts := [1; 2; 0; 1]; s_errors := [1; 1; 1; 1]; s_poisson := true; s_exposure := 20; s_quality := [0;0;0;0]%Z;
     s_grouping := [1; 1; 1; 1]%Z; s_area := [1; 1; 1; 1]; s_back := [1; 1; 1; 1]; s_net_opt := None |}.
Lemma ex_back_ok :
  mk_spectrum [1; 2; 0; 1] [1; 1; 1; 1] true 20 None None (Scal 1) (Scal 1) None (Scal 0) = Ok ex_back.
Proof.
  unfold mk_spectrum, reset_zero.
  cbn [length Nat.eqb negb arr_ok arr_get repeat forallb existsb andb orb zip2 combine fst snd quality_values].
  cbn [Z.eqb Pos.eqb]. rdec. reflexivity.
Qed.
Definition ex_resp (m2 : R) : response :=
  {| r_egrid := [1; 2; 3]; r_emin := [1; 2; 3; 4]; r_emax := [2; 3; 4; 5]; r_matrix := [[1; 0; 0; 0]; [1; 2; m2; 4]]; r_fwhm := [1; 1; 1; 1] |}.
Lemma ex_resp_ok m2 : mk_response [1; 2; 3] [1; 2; 3; 4] [2; 3; 4; 5] [[1; 0; 0; 0]; [1; 2; m2; 4]] [1; 1; 1; 1] = Ok (ex_resp m2).
Proof.
  unfold mk_response. cbn [length Nat.eqb Nat.sub Nat.leb negb forallb existsb andb orb combine fst snd strictly_increasing].
  rdec. reflexivity.
Qed.
Lemma ex_spec_valid c2 : 0 <= c2 -> valid_spectrum (ex_spec c2).
Proof. intros H. do 10 eexists. exact (ex_spec_ok c2 H). Qed.
Lemma ex_back_valid : valid_spectrum ex_back.
Proof. do 10 eexists. exact ex_back_ok. Qed.
Lemma ex_resp_valid m2 : valid_response (ex_resp m2).
Proof. do 5 eexists. exact (ex_resp_ok m2). Qed.

(** constructing an observation from well formed pieces succeeds *)
Lemma mk_obs_defined er s r b ib n : wf_spec s n -> wf_resp r n -> (forall b', b = Some b' -> wf_spec b' n) -> (0 < n)%nat ->
  ranges_ok er -> existsb (fun x => x) (good_mask ib s b) = true -> exists o, mk_obs er s r b ib = Ok o.
Proof.
  intros Ws Wr Wb Hn Her Hg. unfold mk_obs.
  rewrite (ws_c _ _ Ws), (wr_lo _ _ Wr), Nat.eqb_refl. cbn [negb].
  replace (match b with Some b0 => length (s_counts b0) =? n | None => true end) with true.
  2:{ destruct b as [b'|]; [|reflexivity]. rewrite (ws_c _ _ (Wb _ eq_refl)). symmetry. apply Nat.eqb_refl. }
  cbn [negb]. cbv zeta. rewrite Hg. cbn [negb].
  rewrite (proj2 (check_erange_ok er _) (conj Her eq_refl)). cbn [bind].
  unfold choose_grouping. rewrite (ws_g _ _ Ws), (wr_lo _ _ Wr), Nat.eqb_refl. cbn [negb].
  destruct (s_grouping s) as [|f g] eqn:Eg; [pose proof (ws_g _ _ Ws) as L; rewrite Eg in L; simpl in L; lia|].
  cbn [bind]. rewrite (expose_spec s r b _ _ _ n Ws Wr Wb); [eexists; reflexivity| |].
  - now apply good_mask_length.
  - rewrite fix_first_length, <- Eg. apply Ws.
Qed.
Lemma ex_wf_spec c2 : wf_spec (ex_spec c2) 4.
Proof. constructor; reflexivity. Qed.
Lemma ex_wf_back : wf_spec ex_back 4.
Proof. constructor; reflexivity. Qed.
Lemma ex_wf_resp m2 : wf_resp (ex_resp m2) 4.
Proof. constructor; try reflexivity. repeat constructor. Qed.
Lemma ex_obs c2 m2 bk : (bk = None \/ bk = Some ex_back) -> exists o, mk_obs [(4, 5); (1, 3)] (ex_spec c2) (ex_resp m2) bk true = Ok o.
Proof.
  intros Hb. apply (mk_obs_defined _ _ _ _ _ 4); auto using ex_wf_spec, ex_wf_resp.
  - intros b' ->. destruct Hb as [Hb|Hb]; [discriminate|]. injection Hb as ->. exact ex_wf_back.
  - split; [discriminate|]. split; [repeat constructor; cbn; lra|].
    constructor; [constructor; [right; cbn; lra|constructor]|]. constructor; constructor.
  - destruct Hb as [-> | ->]; reflexivity.
Qed.
