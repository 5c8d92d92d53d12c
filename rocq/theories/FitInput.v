(** Model of infer/fit.py [Fit._parse_input] and of the tables built by [Fit.__init__]. *)
From Coq Require Import Ascii String.
From Verif Require Import RBase Data Namespace.
From Coq Require Import List.
Open Scope list_scope.

(** data/base.py:881-915 [get_fixed_data]: the fields used by fitting *)
Record fback := { fb_counts : list R; fb_errors : list R; fb_ratio : list R; fb_poisson : bool }.
Record fdata := { f_name : str; f_counts : list R; f_errors : list R; f_poisson : bool; f_exposure : R; f_area : list R;
  f_back : option fback; f_net : list R; f_net_errors : list R; f_ce : list R;
  f_emin : list R; f_emax : list R; f_matrix : list (list R) }.
Definition get_fixed_data (name : str) (o : obs) : fdata :=
  let x := o_exp o in
  {| f_name := name; f_counts := x_counts x; f_errors := x_errors x; f_poisson := s_poisson (o_spec o);
     f_exposure := s_exposure (o_spec o); f_area := x_area x;
     f_back := match o_bk o, x_back x with
               | Some b, Some (bc, be, ra) => Some {| fb_counts := bc; fb_errors := be; fb_ratio := ra; fb_poisson := s_poisson b |}
               | _, _ => None
               end;
     f_net := x_net x; f_net_errors := x_net_errors x; f_ce := x_ce x;
     f_emin := x_emin x; f_emax := x_emax x; f_matrix := x_matrix x |}.

(** infer/likelihood.py:31-38 *)
Inductive stat := Chi2 | Cstat | Pstat | Pgstat | Wstat.
Definition stat_name (s : stat) : str :=
  s2l (match s with Chi2 => "chi2" | Cstat => "cstat" | Pstat => "pstat" | Pgstat => "pgstat" | Wstat => "wstat" end)%string.
Definition all_stats := [Chi2; Cstat; Pstat; Pgstat; Wstat].
Definition parse_stat (w : str) : option stat := find (fun s => str_eqb w (stat_name s)) all_stats.
Definition spec_normal (s : stat) : bool := match s with Chi2 => true | _ => false end.
Definition back_normal (s : stat) : bool := match s with Pgstat => true | _ => false end.
Definition with_back (s : stat) : bool := match s with Pgstat | Wstat => true | _ => false end.

(** infer/fit.py:296-310 [get_list]: one object, a sequence (elements of the wrong type are [None]), or anything else *)
Inductive arg (A : Type) := One (a : A) | Many (l : list (option A)) | Other.
Arguments One {A} _. Arguments Many {A} _. Arguments Other {A}.
Definition is_some {A} (o : option A) : bool := match o with Some _ => true | None => false end.
Definition get_list {A} (a : arg A) : res (list A) :=
  match a with
  | One x => Ok [x]
  | Many [] => Err ValueError
  | Many l => if forallb is_some l then Ok (flat_map (fun o => match o with Some x => [x] | None => [] end) l) else Err ValueError
  | Other => Err ValueError
  end.
(** infer/fit.py:312-323 [get_stat] *)
Definition get_stat (d : fdata) : stat :=
  if f_poisson d then match f_back d with Some b => if fb_poisson b then Wstat else Pgstat | None => Cstat end
  else Chi2.
(** infer/fit.py:325-389 [check_stat] *)
Definition has_zero (l : list R) : bool := existsb (fun x => Reqb x 0) l.
Definition check_stat (d : fdata) (s : stat) : res unit :=
  if (negb (f_poisson d) && negb (spec_normal s))%bool then Err ValueError else
  match s with
  | Chi2 => if has_zero (f_net_errors d) then Err ValueError else Ok tt
  | Cstat => if is_some (f_back d) then Err ValueError else Ok tt
  | Pstat => if is_some (f_back d) then Ok tt else Err ValueError
  | Pgstat => match f_back d with
              | None => Err ValueError
              | Some b => if has_zero (fb_errors b) then Err ValueError else Ok tt
              end
  | Wstat => match f_back d with
             | None => Err ValueError
             | Some b => if fb_poisson b then Ok tt else Err ValueError
             end
  end.
Fixpoint check_all (l : list (fdata * stat)) : res unit :=
  match l with [] => Ok tt | (d, s) :: r => bind (check_stat d s) (fun _ => check_all r) end.
Fixpoint nodupb (l : list str) : bool := match l with [] => true | x :: r => (negb (str_in x r) && nodupb r)%bool end.
(** [l *= n] when the list has one element, else the lengths must agree: 450-462 *)
Definition broadcast {A} (l : list A) (n : nat) : res (list A) :=
  match l with
  | [x] => Ok (repeat x n)
  | _ => if (length l =? n)%nat then Ok l else Err ValueError
  end.
(** infer/fit.py:288-468 [_parse_input]; the check for repeated data objects (399-407) compares a list with its own length and never
    fires.  [M] is the type of models, [additive] their [type == 'add']. *)
Section Parse.
Context {M : Type} (additive : M -> bool).
Definition parse_input (data : arg (str * obs)) (model : arg M) (st : option (arg str)) : res (list fdata * list M * list stat) :=
  bind (get_list data) (fun data =>
  let ds := map (fun p => get_fixed_data (fst p) (snd p)) data in
  if negb (nodupb (map f_name ds)) then Err ValueError else
  bind (get_list model) (fun ms =>
  if negb (forallb additive ms) then Err TypeError else
  bind (match st with
        | None => Ok (map get_stat ds)
        | Some a => bind (get_list a) (fun ws =>
            if forallb is_some (map parse_stat ws)
            then Ok (flat_map (fun o => match o with Some x => [x] | None => [] end) (map parse_stat ws)) else Err ValueError)
        end) (fun ss =>
  let nd := length ds in
  bind (broadcast ms nd) (fun ms =>
  bind (broadcast ss nd) (fun ss =>
  bind (check_all (combine ds ss)) (fun _ => Ok (ds, ms, ss))))))).
(** infer/fit.py:96-171 [Fit.__init__]: the tables keyed by data name *)
Record fit_tables := { ft_data : list (str * fdata); ft_model : list (str * M); ft_stat : list (str * stat) }.
Definition dict_of {V} (ks : list str) (vs : list V) : list (str * V) := fold_left (fun d p => put d (fst p) (snd p)) (combine ks vs) [].
Definition fit_init (data : arg (str * obs)) (model : arg M) (st : option (arg str)) : res fit_tables :=
  bind (parse_input data model st) (fun t =>
  let '(ds, ms, ss) := t in let names := map f_name ds in
  Ok {| ft_data := dict_of names ds; ft_model := dict_of names ms; ft_stat := dict_of names ss |}).
End Parse.
