(** C125: saved results. *)
From Coq Require Import Ascii String Lia.
From Verif Require Import Base Namespace NamespaceProofs SavedResults.
From Coq Require Import List.
Import ListNotations.
Open Scope list_scope.

Theorem C125_algorithms : forall s, match alg_of s with
  | Ok Gzip => s = None \/ s = Some (s2l "gzip") | Ok Bz2 => s = Some (s2l "bz2") | Ok Lzma => s = Some (s2l "lzma")
  | Err e => e = ValueError /\ s <> None /\ s <> Some (s2l "gzip") /\ s <> Some (s2l "bz2") /\ s <> Some (s2l "lzma") end.
Proof.
  intros [s|]; [|left; reflexivity]. unfold alg_of. destruct (str_eqb_spec s (s2l "gzip")) as [->|N1]; [now right|].
  destruct (str_eqb_spec s (s2l "bz2")) as [->|N2]; [reflexivity|]. destruct (str_eqb_spec s (s2l "lzma")) as [->|N3]; [reflexivity|]. repeat split; congruence.
Qed.
Print Assumptions C125_algorithms.

Section Files.
Variables (V : Type) (dump : V -> list ascii * bool) (undump : list ascii -> option V).
Variables (pack : alg -> list ascii -> list ascii) (unpack : alg -> list ascii -> option (list ascii)).
(** what dill and the compressed files promise *)
Hypothesis reads_dump : forall v, snd (dump v) = true -> undump (fst (dump v)) = Some v.
Hypothesis reads_pack : forall a b, unpack a (pack a b) = Some b.
Hypothesis own_format : forall a a' b, a <> a' -> unpack a' (pack a b) = None.
Notation save := (save V dump pack). Notation load := (load V undump unpack). Notation saves := (saves V dump pack).

(** a saved result is loaded again with the same algorithm, and with no other *)
Theorem C125_loaded : forall fs path c v fs', save fs path c v = (fs', None) -> forall c',
  (alg_of c' = alg_of c -> load fs' path c' = Ok v) /\ (alg_of c' <> alg_of c -> exists e, load fs' path c' = Err e /\ (e = ValueError <-> exists e, alg_of c' = Err e)).
Proof.
  intros fs path c v fs' H c'. unfold SavedResults.save in H. destruct (alg_of c) as [a|e] eqn:Ec; [|discriminate]. destruct (snd (dump v)) eqn:Ed; [|discriminate]. injection H as <-.
  unfold SavedResults.load. split; intros Q.
  - rewrite Q. cbn [bind]. rewrite get_put. destruct (str_eqb_spec path path); [|congruence]. rewrite reads_pack. now rewrite reads_dump.
  - destruct (alg_of c') as [a'|e] eqn:Ec'; cbn [bind].
    + rewrite get_put. destruct (str_eqb_spec path path); [|congruence]. rewrite own_format by congruence. exists RuntimeError. split; [reflexivity|]. split; [discriminate|]. intros (e0 & X). discriminate.
    + exists e. split; [reflexivity|]. pose proof (C125_algorithms c') as A. rewrite Ec' in A. destruct A as (-> & _). split; [now exists ValueError|reflexivity].
Qed.
Print Assumptions C125_loaded.

(** other files are never touched, whether saving succeeds or not; an unknown algorithm touches none *)
Theorem C125_others : forall fs path c v p, (p <> path \/ ~ exists a, alg_of c = Ok a) -> get (fst (save fs path c v)) p = get fs p.
Proof.
  intros fs path c v p H. unfold SavedResults.save. destruct (alg_of c) as [a|e] eqn:E; [|reflexivity]. cbn [fst]. rewrite get_put.
  destruct (str_eqb_spec p path) as [->|]; [|reflexivity]. destruct H as [H|H]; [congruence|]. exfalso. apply H. now exists a.
Qed.
Print Assumptions C125_others.
Theorem C125_error : forall fs path c v, snd (save fs path c v) = Some ValueError <-> ~ exists a, alg_of c = Ok a.
Proof.
  intros fs path c v. unfold SavedResults.save. pose proof (C125_algorithms c) as A. destruct (alg_of c) as [a|e].
  - cbn [snd]. split; [destruct (snd (dump v)); discriminate|]. intros H. exfalso. apply H. now exists a.
  - destruct A as (-> & _). cbn [snd]. split; [intros _ (a & X); discriminate|reflexivity].
Qed.
Print Assumptions C125_error.

(** after any history of saves a path holds the last result saved there *)
Theorem C125_history : forall h1 fs path c v h2 c', snd (dump v) = true -> alg_of c = alg_of c' -> (exists a, alg_of c = Ok a) ->
  Forall (fun x => fst (fst x) <> path \/ ~ exists a, alg_of (snd (fst x)) = Ok a) h2 ->
  load (saves fs (h1 ++ (path, c, v) :: h2)) path c' = Ok v.
Proof.
  intros h1 fs path c v h2 c' D E (a & Ea) F. unfold SavedResults.saves. rewrite fold_left_app. cbn [fold_left]. set (fs1 := fold_left _ h1 fs). clearbody fs1. cbn [fst snd].
  assert (K : forall fs2, get (fold_left (fun fs x => fst (save fs (fst (fst x)) (snd (fst x)) (snd x))) h2 fs2) path = get fs2 path).
  { clear -F. induction F as [|[[p d] w] h2 H _ IH]; intros fs2; [reflexivity|]. cbn [fold_left fst snd] in *. rewrite IH. apply C125_others. destruct H as [H|H]; [left; congruence|now right]. }
  unfold SavedResults.load. rewrite <- E, Ea. cbn [bind]. rewrite K. unfold SavedResults.save. rewrite Ea. cbn [fst]. rewrite get_put. destruct (str_eqb_spec path path); [|congruence]. rewrite reads_pack. now rewrite reads_dump.
Qed.
Print Assumptions C125_history.

(** stopped at any moment, all other files are as before, and the file itself if saving had not begun *)
Theorem C125_stopped : forall fs path c v fs', stopped V dump pack fs path c v fs' ->
  (forall p, p <> path -> get fs' p = get fs p) /\ (get fs' path = get fs path \/ exists a n, alg_of c = Ok a /\ get fs' path = Some (firstn n (pack a (fst (dump v))))).
Proof.
  intros fs path c v fs' H. destruct H as [|a n E]; [split; [reflexivity|now left]|]. split.
  - intros p N. rewrite get_put. destruct (str_eqb_spec p path); [congruence|reflexivity].
  - right. exists a, n. split; [exact E|]. rewrite get_put. destruct (str_eqb_spec path path); [reflexivity|congruence].
Qed.
Print Assumptions C125_stopped.

(** the result saved before is not kept: a save over it that fails, or is stopped, loses it.  No compressed file is empty
    ([never_empty]); the bytes of an unfinished dump are no result ([unfinished]) *)
Hypothesis never_empty : forall a, unpack a [] = None.
Hypothesis unfinished : forall v, snd (dump v) = false -> undump (fst (dump v)) = None.
Theorem C125_failed_save_refuted : forall fs path c v w a, alg_of c = Ok a -> snd (dump v) = true -> snd (dump w) = false ->
  let fs1 := fst (save fs path c v) in load fs1 path c = Ok v /\ snd (save fs1 path c w) = Some TypeError /\
  forall c', exists e, load (fst (save fs1 path c w)) path c' = Err e.
Proof.
  intros fs path c v w a E D1 D2 fs1. split.
  { apply (C125_loaded fs path c v); [|reflexivity]. unfold fs1, SavedResults.save. rewrite E, D1. reflexivity. }
  unfold SavedResults.save at 1. rewrite E, D2. split; [reflexivity|]. intros c'. unfold SavedResults.load. destruct (alg_of c') as [a'|e]; [|now exists e]. cbn [bind].
  unfold SavedResults.save. rewrite E. cbn [fst]. rewrite get_put. destruct (str_eqb_spec path path); [|congruence].
  destruct (unpack a' (pack a (fst (dump w)))) as [b|] eqn:Eu; [|now exists RuntimeError]. assert (b = fst (dump w)) as ->.
  { assert (a' = a) as -> by (destruct a, a'; try reflexivity; rewrite own_format in Eu by discriminate; discriminate). rewrite reads_pack in Eu. congruence. }
  rewrite unfinished by exact D2. now exists RuntimeError.
Qed.
Print Assumptions C125_failed_save_refuted.
Theorem C125_stopped_save_refuted : forall fs path c v w a, alg_of c = Ok a -> snd (dump v) = true ->
  let fs1 := fst (save fs path c v) in load fs1 path c = Ok v /\
  exists fs2, stopped V dump pack fs1 path c w fs2 /\ forall c', exists e, load fs2 path c' = Err e.
Proof.
  intros fs path c v w a E D fs1. split.
  { apply (C125_loaded fs path c v); [|reflexivity]. unfold fs1, SavedResults.save. rewrite E, D. reflexivity. }
  eexists. split; [apply (written_to V dump pack fs1 path c w a 0 E)|]. intros c'. unfold SavedResults.load. destruct (alg_of c') as [a'|e]; [|now exists e]. cbn [bind firstn].
  rewrite get_put. destruct (str_eqb_spec path path); [|congruence]. rewrite never_empty. now exists RuntimeError.
Qed.
Print Assumptions C125_stopped_save_refuted.
End Files.

(** the promises can be kept: results are texts, of which those with a '!' cannot be dumped, and a file starts with a letter for its algorithm *)
Definition ex_dump (v : list ascii) : list ascii * bool := if existsb (Ascii.eqb "!") v then (s2l "?" ++ v, false) else (s2l "." ++ v, true).
Definition ex_undump (b : list ascii) : option (list ascii) := match b with c :: v => if Ascii.eqb c "." then Some v else None | [] => None end.
Definition ex_mark (a : alg) : ascii := match a with Gzip => "g" | Bz2 => "b" | Lzma => "l" end.
Definition ex_pack (a : alg) (b : list ascii) : list ascii := ex_mark a :: b.
Definition ex_unpack (a : alg) (f : list ascii) : option (list ascii) := match f with c :: b => if Ascii.eqb c (ex_mark a) then Some b else None | [] => None end.
Example C125_ex : (forall v, snd (ex_dump v) = true -> ex_undump (fst (ex_dump v)) = Some v) /\ (forall a b, ex_unpack a (ex_pack a b) = Some b) /\
  (forall a a' b, a <> a' -> ex_unpack a' (ex_pack a b) = None) /\ (forall a, ex_unpack a [] = None) /\ (forall v, snd (ex_dump v) = false -> ex_undump (fst (ex_dump v)) = None) /\
  load (list ascii) ex_undump ex_unpack (saves (list ascii) ex_dump ex_pack [] [(s2l "p", None, s2l "x"); (s2l "q", None, s2l "y"); (s2l "p", Some (s2l "bz2"), s2l "z"); (s2l "q", Some (s2l "zip"), s2l "w")]) (s2l "p") (Some (s2l "bz2")) = Ok (s2l "z").
Proof.
  split; [|split; [|split; [|split; [|split]]]].
  - intros v H. unfold ex_dump in *. destruct (existsb _ v); [discriminate|reflexivity].
  - intros [] b; reflexivity.
  - intros [] [] b N; try congruence; reflexivity.
  - reflexivity.
  - intros v H. unfold ex_dump in *. destruct (existsb _ v); [reflexivity|discriminate].
  - reflexivity.
Qed.
