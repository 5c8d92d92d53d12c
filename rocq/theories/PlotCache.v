(** Model of the cached quantities shown in plots, plot/data.py: [_cache_method_with_check] (50-68) and the methods of
    MLEPlotData and PosteriorPlotData that use it. *)
From Coq Require Import Ascii String.
From Verif Require Import RBase Data Namespace FitInput HelperData Results Summary.
From Coq Require Import List.
Open Scope list_scope.

Definition val := option (list (list R)). (* [None], or an array (rows are simulations) *)

(** ** the cache: data.py:50-68.  A method is cached in a table that is emptied when the identity of the watched object
    (self.boot, self.ppc) differs from the one remembered.  [L] are the methods that call no other cached one, [T] those
    that do ([uses]); a call without argument has the key 0. *)
Section Machine.
Context {C L T : Type}.
Variables (leqb : L -> L -> bool) (teqb : T -> T -> bool).
Variable none_id : Z. (* id(None) *)
Variables (lbody : L -> option C -> R -> res val) (uses : T -> option C -> list L) (tbody : T -> option C -> R -> list val -> res val).
Record obj := { o_id : Z; o_c : C }.
Record slot := { sl_id : Z; sl_tab : list (R * val) }.
Record plot_data := { cur : option obj; lslot : L -> slot; tslot : T -> slot }.
Definition content (s : plot_data) : option C := option_map o_c (cur s).
Definition cid (s : plot_data) : Z := match cur s with None => none_id | Some o => o_id o end.
Definition set_l (s : plot_data) (l : L) (x : slot) : plot_data := {| cur := cur s; lslot := fun l' => if leqb l' l then x else lslot s l'; tslot := tslot s |}.
Definition set_t (s : plot_data) (t : T) (x : slot) : plot_data := {| cur := cur s; lslot := lslot s; tslot := fun t' => if teqb t' t then x else tslot s t' |}.
(** 58-59: a new PlotData object, data.py:103-116 *)
Definition new_plot_data (o : option obj) : plot_data :=
  let x := {| sl_id := match o with None => none_id | Some o => o_id o end; sl_tab := [] |} in
  {| cur := o; lslot := fun _ => x; tslot := fun _ => x |}.
Fixpoint lookup (k : R) (t : list (R * val)) : option val :=
  match t with [] => None | (k', v) :: r => if Req_EM_T k k' then Some v else lookup k r end.
Definition q_leaf (l : L) (k : R) (s : plot_data) : res val * plot_data :=
  let s1 := if (sl_id (lslot s l) =? cid s)%Z then s else set_l s l {| sl_id := cid s; sl_tab := [] |} in
  match lookup k (sl_tab (lslot s1 l)) with
  | Some v => (Ok v, s1)
  | None => match lbody l (content s1) k with
            | Ok v => (Ok v, set_l s1 l {| sl_id := sl_id (lslot s1 l); sl_tab := (k, v) :: sl_tab (lslot s1 l) |})
            | Err e => (Err e, s1)
            end
  end.
Fixpoint q_leaves (ls : list L) (s : plot_data) : res (list val) * plot_data :=
  match ls with
  | [] => (Ok [], s)
  | l :: ls => match q_leaf l 0 s with
               | (Err e, s) => (Err e, s)
               | (Ok v, s) => match q_leaves ls s with (Err e, s) => (Err e, s) | (Ok vs, s) => (Ok (v :: vs), s) end
               end
  end.
Definition q_top (t : T) (k : R) (s : plot_data) : res val * plot_data :=
  let s1 := if (sl_id (tslot s t) =? cid s)%Z then s else set_t s t {| sl_id := cid s; sl_tab := [] |} in
  match lookup k (sl_tab (tslot s1 t)) with
  | Some v => (Ok v, s1)
  | None => match q_leaves (uses t (content s1)) s1 with
            | (Err e, s2) => (Err e, s2)
            | (Ok vs, s2) => match tbody t (content s2) k vs with
                             | Ok v => (Ok v, set_t s2 t {| sl_id := sl_id (tslot s2 t); sl_tab := (k, v) :: sl_tab (tslot s2 t) |})
                             | Err e => (Err e, s2)
                             end
            end
  end.
(** what happens to a plot: methods are called, and the watched result is replaced (boot, ppc: Results.v) *)
Inductive method := Leaf (l : L) (k : R) | Top (t : T) (k : R).
Inductive event := Replace (o : obj) | Call (m : method).
Definition query (m : method) (s : plot_data) : res val * plot_data := match m with Leaf l k => q_leaf l k s | Top t k => q_top t k s end.
Definition event_step (s : plot_data) (e : event) : plot_data :=
  match e with Replace o => {| cur := Some o; lslot := lslot s; tslot := tslot s |} | Call m => snd (query m s) end.
Definition events (s : plot_data) (h : list event) : plot_data := fold_left event_step h s.
End Machine.
Arguments obj : clear implicits.
Arguments method : clear implicits.
Arguments event : clear implicits.
Arguments plot_data : clear implicits.

(** ** elementwise array operations; a vector is broadcast over the rows *)
Definition elementwise (f : R -> R -> R) (a b : list (list R)) : list (list R) := zip2 (zip2 f) a b.
Definition signs (data model : list (list R)) : list (list R) := elementwise (fun d m => if Rleb m d then 1 else -1) data model.
(** residuals.py:44-66 [pearson_residuals]; numpy gives NaN or an infinity where the standard deviation is 0: the theorems
    claim nothing for such channels (C111 says when they exist) *)
Definition pearson (std : option (list R)) (observed expected : list (list R)) : list (list R) :=
  match std with
  | None => elementwise (fun o e => (o - e) / sqrt e) observed expected
  | Some s => zip2 (fun o e => zip2 Rdiv (zip2 Rminus o e) s) observed expected
  end.
(** [np.quantile(a, q, axis=0)] for a scalar [q], of an array with [w] columns *)
Definition quantile_rows (w : nat) (a : list (list R)) (q : R) : res (list R) := mapE (fun j => quantile (col a j) q) (seq 0 w).

(** ** the result of simulated fits as seen by the plots of one data set: the arrays named X, X_Non, X_Noff of the
    simulated data, X, X_Non_model, X_Noff_model of the models, and the deviance of each channel *)
Record sims := { m_x : list (list R); m_on : list (list R); m_off : list (list R);
                 d_x : list (list R); d_on : list (list R); d_off : list (list R); dev : list (list R) }.
(** the fixed information: statistic, numbers of channels, errors *)
Record fixed := { fx_stat : stat; fx_width : nat; fx_net_err : list R; fx_back_err : list R }.

(** ** MLEPlotData *)
Inductive mle_leaf := CeModelCi | SignBoot.
Inductive mle_top := DevianceBoot | PearsonBoot.
Definition mle_leaf_eqb (a b : mle_leaf) : bool := match a, b with CeModelCi, CeModelCi | SignBoot, SignBoot => true | _, _ => false end.
Definition mle_top_eqb (a b : mle_top) : bool := match a, b with DevianceBoot, DevianceBoot | PearsonBoot, PearsonBoot => true | _, _ => false end.
Section MLE.
Variable fx : fixed.
(** plot/data.py:342-353 [ce_model_ci], 402-407 [_sign_boot] *)
Definition mle_lbody (l : mle_leaf) (b : option sims) (k : R) : res val :=
  match b with
  | None => Ok None
  | Some b =>
      match l with
      | CeModelCi =>
          if (Rleb k 0 || Rleb 1 k)%bool then Err AssertionError else
          bind (quantile_rows (fx_width fx) (m_x b) (0.5 + k * -0.5)) (fun lo =>
          bind (quantile_rows (fx_width fx) (m_x b) (0.5 + k * 0.5)) (fun hi => Ok (Some [lo; hi])))
      | SignBoot => Ok (Some (signs (d_x b) (m_x b)))
      end
  end.
(** 550-559, 568-608: the sign is read by the deviance residuals, and by those of Pearson when there is a background *)
Definition mle_uses (t : mle_top) (b : option sims) : list mle_leaf :=
  match b with None => [] | Some _ => match t with DevianceBoot => [SignBoot] | PearsonBoot => if with_back (fx_stat fx) then [SignBoot] else [] end end.
(** 568-608 for [rtype] equal to boot, without the sign *)
Definition pearson_on (b : sims) := pearson (if spec_normal (fx_stat fx) then Some (fx_net_err fx) else None) (d_on b) (m_on b).
Definition pearson_off (b : sims) := pearson (if back_normal (fx_stat fx) then Some (fx_back_err fx) else None) (d_off b) (m_off b).
Definition mle_tbody (t : mle_top) (b : option sims) (k : R) (vs : list val) : res val :=
  match b with
  | None => Ok None
  | Some b =>
      match t, vs with
      | DevianceBoot, [Some sg] => Ok (Some (elementwise Rmult sg (map (map sqrt) (dev b))))
      | PearsonBoot, [Some sg] => Ok (Some (elementwise Rmult sg (elementwise (fun r rb => sqrt (r * r + rb * rb)) (pearson_on b) (pearson_off b))))
      | PearsonBoot, [] => Ok (Some (pearson_on b))
      | _, _ => Err TypeError
      end
  end.
Definition mle_query none_id := query mle_leaf_eqb mle_top_eqb none_id mle_lbody mle_uses mle_tbody.
(** plot/data.py:503-519 [residuals_sim]; [rd] chooses the deviance residuals, otherwise those of Pearson *)
Definition residuals_sim none_id (rd : bool) (s : plot_data sims mle_leaf mle_top) : res val * plot_data sims mle_leaf mle_top :=
  match cur s with None => (Ok None, s) | Some _ => mle_query none_id (Top (if rd then DevianceBoot else PearsonBoot) 0) s end.
(** plot/data.py:521-541 [residuals_ci] *)
Definition residuals_ci none_id (rd : bool) (cl : R) (with_sign : bool) (s : plot_data sims mle_leaf mle_top) : res val * plot_data sims mle_leaf mle_top :=
  match cur s with
  | None => (Ok None, s)
  | Some _ =>
      if (Rleb cl 0 || Rleb 1 cl)%bool then (Err AssertionError, s) else
      let '(r, s') := residuals_sim none_id rd s in
      (bind r (fun r => match r with
       | None => Err TypeError
       | Some r =>
           if with_sign
           then bind (quantile_rows (fx_width fx) r (0.5 + cl * -0.5)) (fun lo => bind (quantile_rows (fx_width fx) r (0.5 + cl * 0.5)) (fun hi => Ok (Some [lo; hi])))
           else bind (quantile_rows (fx_width fx) (map (map Rabs) r) cl) (fun q => Ok (Some [map Ropp q; q]))
       end), s')
  end.
End MLE.

(** ** PosteriorPlotData: the quantities that depend on the maximum likelihood fit of the data are cached with the
    predictive check as well, 790-804, 911-919, 939-947.  [mf] are those of the fit: one row *)
Inductive post_leaf := SignMle | SignPpc.
Inductive post_top := DevianceMle | DeviancePpc | PearsonMle | PearsonPpc.
Definition post_leaf_eqb (a b : post_leaf) : bool := match a, b with SignMle, SignMle | SignPpc, SignPpc => true | _, _ => false end.
Definition post_top_eqb (a b : post_top) : bool :=
  match a, b with DevianceMle, DevianceMle | DeviancePpc, DeviancePpc | PearsonMle, PearsonMle | PearsonPpc, PearsonPpc => true | _, _ => false end.
Section Posterior.
Variables (fx : fixed) (mf : sims).
Definition post_lbody (l : post_leaf) (b : option sims) (k : R) : res val :=
  match b with
  | None => Ok None
  | Some b => Ok (Some (match l with SignMle => signs (d_x mf) (m_x mf) | SignPpc => signs (d_x b) (m_x b) end))
  end.
(** 764-773: [sign] evaluates all signs; 921-930, 949-996 *)
Definition post_uses (t : post_top) (b : option sims) : list post_leaf :=
  match b with
  | None => []
  | Some _ => match t with DevianceMle | DeviancePpc => [SignMle; SignPpc] | PearsonMle | PearsonPpc => if with_back (fx_stat fx) then [SignMle; SignPpc] else [] end
  end.
Definition post_tbody (t : post_top) (b : option sims) (k : R) (vs : list val) : res val :=
  match b with
  | None => Ok None
  | Some b =>
      let src := match t with DevianceMle | PearsonMle => mf | _ => b end in
      let dv := match t with DevianceMle | DeviancePpc => true | _ => false end in
      let sg := match t, vs with (DevianceMle | PearsonMle), [Some a; _] => Some a | (DeviancePpc | PearsonPpc), [_; Some a] => Some a | _, _ => None end in
      if dv then match sg with Some sg => Ok (Some (elementwise Rmult sg (map (map sqrt) (dev src)))) | None => Err TypeError end
      else match vs with
           | [] => Ok (Some (pearson_on fx src))
           | _ => match sg with
                  | Some sg => Ok (Some (elementwise Rmult sg (elementwise (fun r rb => sqrt (r * r + rb * rb)) (pearson_on fx src) (pearson_off fx src))))
                  | None => Err TypeError
                  end
           end
  end.
Definition post_query none_id := query post_leaf_eqb post_top_eqb none_id post_lbody post_uses post_tbody.
End Posterior.
