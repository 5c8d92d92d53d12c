(** Real-number helpers (float64 is modelled by [R], without rounding/NaN/inf). *)
From Coq Require Export Reals Lra.
From Verif Require Export Base.
Open Scope R_scope.

(** numpy comparisons on float64 *)
Definition Rleb (x y : R) : bool := if Rle_dec x y then true else false.
Definition Rltb (x y : R) : bool := if Rlt_dec x y then true else false.
Definition Reqb (x y : R) : bool := if Req_EM_T x y then true else false.

Lemma Rleb_spec x y : reflect (x <= y) (Rleb x y).
Proof. unfold Rleb; destruct (Rle_dec x y); now constructor. Qed.
Lemma Rltb_spec x y : reflect (x < y) (Rltb x y).
Proof. unfold Rltb; destruct (Rlt_dec x y); now constructor. Qed.
Lemma Reqb_spec x y : reflect (x = y) (Reqb x y).
Proof. unfold Reqb; destruct (Req_EM_T x y); now constructor. Qed.

Lemma Rleb_true x y : Rleb x y = true <-> x <= y.
Proof. destruct (Rleb_spec x y); split; intros; try lra; try easy. Qed.
Lemma Rltb_true x y : Rltb x y = true <-> x < y.
Proof. destruct (Rltb_spec x y); split; intros; try lra; try easy. Qed.
Lemma Rleb_false x y : Rleb x y = false <-> y < x.
Proof. destruct (Rleb_spec x y); split; intros; try lra; try easy. Qed.
Lemma Rltb_false x y : Rltb x y = false <-> y <= x.
Proof. destruct (Rltb_spec x y); split; intros; try lra; try easy. Qed.

(** [x.sum()] *)
Definition rsum (l : list R) : R := fold_right Rplus 0 l.

Lemma rsum_app l1 l2 : rsum (l1 ++ l2) = rsum l1 + rsum l2.
Proof. induction l1 as [|x l IH]; simpl; [lra|]. rewrite IH; lra. Qed.
Lemma rsum_concat gs : rsum (concat gs) = rsum (map rsum gs).
Proof. induction gs as [|g gs IH]; simpl; [reflexivity|]. now rewrite rsum_app, IH. Qed.
Lemma rsum_nonneg l : Forall (fun x => 0 <= x) l -> 0 <= rsum l.
Proof. induction 1; simpl; lra. Qed.
Lemma rsum_zero l : Forall (fun x => 0 <= x) l -> rsum l = 0 -> Forall (fun x => x = 0) l.
Proof.
  induction 1 as [|x l Hx Hl IH]; simpl; intros H; [constructor|].
  pose proof (rsum_nonneg l Hl). constructor; [lra|apply IH; lra].
Qed.
Lemma rsum_scal c l : rsum (map (Rmult c) l) = c * rsum l.
Proof. induction l as [|x l IH]; simpl; [lra|]. rewrite IH; lra. Qed.
Lemma rsum_le {A} (f g : A -> R) l : (forall x, In x l -> f x <= g x) -> rsum (map f l) <= rsum (map g l).
Proof.
  induction l as [|x l IH]; simpl; intros H; [lra|].
  pose proof (H x (or_introl eq_refl)). assert (rsum (map f l) <= rsum (map g l)) by (apply IH; auto). lra.
Qed.
Lemma rsum_plus {A} (f g : A -> R) l : rsum (map (fun x => f x + g x) l) = rsum (map f l) + rsum (map g l).
Proof. induction l as [|x l IH]; simpl; [lra|]. rewrite IH; lra. Qed.
Lemma rsum_mult {A} c (f : A -> R) l : rsum (map (fun x => c * f x) l) = c * rsum (map f l).
Proof. induction l as [|x l IH]; simpl; [lra|]. rewrite IH; lra. Qed.
Lemma rsum_zeros {A} (f : A -> R) l : (forall x, In x l -> f x = 0) -> rsum (map f l) = 0.
Proof.
  induction l as [|x l IH]; simpl; intros H; [reflexivity|].
  rewrite (H x (or_introl eq_refl)), IH; [lra|]. intros; apply H; now right.
Qed.

(** element-wise product of arrays, [a * b] *)
Definition rmul2 (a b : list R) : list R := map (fun p => fst p * snd p) (combine a b).

(** booleans as floats, [quality.astype(np.float64)] *)
Definition b2r (b : bool) : R := if b then 1 else 0.
