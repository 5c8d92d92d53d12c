(** Model of the labels with sub- and superscripts: util/misc.py:31-186 ([set_suffix_config], [add_suffix]) and their use in
    infer/fit.py:112-139.  A text is the list of its code points; [repr] and [ascii] of a text are parameters. *)
From Coq Require Import Ascii String NArith.
From Verif Require Import Base Namespace HelperData.
From Coq Require Import List.
Import ListNotations.
Open Scope list_scope.

Definition text := list N.
Definition emb (s : str) : text := map N_of_ascii s.
Definition t_ (s : string) : text := emb (s2l s).
Definition ch (a : ascii) : N := N_of_ascii a.

(** ** Python's [t % a] for a text [a] *)
Inductive stage := Start | Flags | Width | Prec0 | Prec | Modif.
Record spec := { sp_left : bool; sp_width : nat; sp_prec : option nat; sp_stage : stage }.
Definition new_spec : spec := {| sp_left := false; sp_width := 0; sp_prec := None; sp_stage := Start |}.
Inductive mode := Plain | InSpec (sp : spec).
Definition digit_of (c : N) : option nat := if ((48 <=? c) && (c <=? 57))%N%bool then Some (N.to_nat (c - 48)) else None.
Definition one_of (s : string) (c : N) : bool := existsb (N.eqb c) (t_ s).
Inductive action := More (sp : spec) | Bad (e : err) | Type_.
Definition step_mod (sp : spec) (c : N) : action :=
  if one_of "hlL" c then More {| sp_left := sp_left sp; sp_width := sp_width sp; sp_prec := sp_prec sp; sp_stage := Modif |} else Type_.
Definition step_dot (sp : spec) (c : N) : action :=
  if one_of "." c then More {| sp_left := sp_left sp; sp_width := sp_width sp; sp_prec := Some 0; sp_stage := Prec0 |} else step_mod sp c.
Definition step (sp : spec) (c : N) : action :=
  let width w := More {| sp_left := sp_left sp; sp_width := w; sp_prec := sp_prec sp; sp_stage := Width |} in
  let prec p := More {| sp_left := sp_left sp; sp_width := sp_width sp; sp_prec := Some p; sp_stage := Prec |} in
  let flags := if one_of "#0- +" c then More {| sp_left := (sp_left sp || one_of "-" c)%bool; sp_width := sp_width sp; sp_prec := sp_prec sp; sp_stage := Flags |}
               else if one_of "*" c then Bad TypeError
               else match digit_of c with Some d => width d | None => step_dot sp c end in
  match sp_stage sp with
  | Start => if one_of "(" c then Bad TypeError else flags
  | Flags => flags
  | Width => match digit_of c with Some d => width (10 * sp_width sp + d) | None => step_dot sp c end
  | Prec0 => if one_of "*" c then Bad TypeError else match digit_of c with Some d => prec d | None => step_mod sp c end
  | Prec => match digit_of c with Some d => prec (10 * match sp_prec sp with Some p => p | None => 0 end + d) | None => step_mod sp c end
  | Modif => Type_
  end.
Definition cut (p : option nat) (a : text) : text := match p with Some n => firstn n a | None => a end.
Definition pad (left : bool) (w : nat) (a : text) : text := let sp := repeat 32%N (w - length a) in if left then a ++ sp else sp ++ a.
Section Format.
Variables (repr ascii_ : text -> text).
Definition convert (sp : spec) (c : N) (a : text) : res text :=
  let show x := Ok (pad (sp_left sp) (sp_width sp) (cut (sp_prec sp) x)) in
  if one_of "s" c then show a else if one_of "r" c then show (repr a) else if one_of "a" c then show (ascii_ a)
  else if one_of "c" c then if length a =? 1 then Ok (pad (sp_left sp) (sp_width sp) a) else Err TypeError
  else if one_of "diouxXeEfFgG" c then Err TypeError else Err ValueError.
(** [arg]: the argument, if it has not been used yet *)
Fixpoint format_ (t : text) (m : mode) (arg : option text) : res text :=
  match t with
  | [] => match m, arg with InSpec _, _ => Err ValueError | Plain, Some _ => Err TypeError | Plain, None => Ok [] end
  | c :: r =>
      match m with
      | Plain => if one_of "%" c then format_ r (InSpec new_spec) arg else bind (format_ r Plain arg) (fun x => Ok (c :: x))
      | InSpec sp =>
          match step sp c with
          | More sp' => format_ r (InSpec sp') arg
          | Bad e => Err e
          | Type_ =>
              if one_of "%" c then bind (format_ r Plain arg) (fun x => Ok (c :: x))
              else match arg with
                   | None => Err TypeError
                   | Some a => bind (convert sp c a) (fun x => bind (format_ r Plain None) (fun y => Ok (x ++ y)))
                   end
          end
      end
  end.
Definition percent (t a : text) : res text := format_ t Plain (Some a).

(** ** the settings, 46-50 and 52-95; an exception leaves them as they were *)
Record config := { c_unicode : bool; c_sub : text; c_sup : text; c_lsub : text; c_lsup : text }.
Definition defaults : config := {| c_unicode := false; c_sub := t_ "_%s"; c_sup := t_ "[%s]"; c_lsub := t_ "_{%s}"; c_lsup := t_ "^{%s}" |}.
Definition set_suffix_config (c : config) (new : config) : config * option err :=
  match mapE (fun t => percent t (t_ "test")) [c_sub new; c_sup new; c_lsub new; c_lsup new] with
  | Ok _ => (new, None)
  | Err TypeError => (c, Some ValueError)
  | Err e => (c, Some e)
  end.

(** ** 31-45: the tables; code points of the characters that stand for those of [table_keys] *)
Definition table_keys : text := t_ "ABCDEFGHIJKLMNOPQRSTUVWXYZabcdefghijklmnopqrstuvwxyz0123456789+-/=()".
Definition subscripts : text := [7424; 665; 7428; 7429; 7431; 1171; 610; 668; 618; 7434; 7435; 671; 7437; 628; 7439; 7448; 491; 640; 115; 7451; 7452; 7456; 7457; 120; 655; 7458; 8336; 7526; 119992; 119993; 8337; 119995; 120048; 8341; 7522; 11388; 8342; 8343; 8344; 8345; 8338; 8346; 7529; 7523; 8347; 8348; 7524; 7525; 120012; 8339; 7527; 120015; 8320; 8321; 8322; 8323; 8324; 8325; 8326; 8327; 8328; 8329; 8330; 8331; 11805; 8332; 8333; 8334]%N.
Definition superscripts : text := [7468; 7470; 7580; 7472; 7473; 7584; 7475; 7476; 7477; 7478; 7479; 7480; 7481; 7482; 7484; 7486; 7520; 7487; 738; 7488; 7489; 11389; 7490; 5501; 696; 7611; 7491; 7495; 7580; 7496; 7497; 7584; 7501; 688; 8305; 690; 7503; 737; 7504; 8319; 7506; 7510; 7520; 691; 738; 7511; 7512; 7515; 695; 739; 696; 7611; 8304; 185; 178; 179; 8308; 8309; 8310; 8311; 8312; 8313; 8314; 8315; 5151; 8316; 8317; 8318]%N.
Fixpoint lookupN (l : list (N * N)) (c : N) : N := match l with [] => c | (k, v) :: r => if N.eqb c k then v else lookupN r c end.
Definition raise_char (sub : bool) (c : N) : N := lookupN (combine table_keys (if sub then subscripts else superscripts)) c.
Definition to_unicode (sub : bool) (s : text) : text := map (raise_char sub) s.

(** ** 98-186 [add_suffix] *)
Inductive texts := One (t : text) | Many (l : list text).
Definition items (a : texts) : list text := match a with One t => [t] | Many l => l end.
Definition is_one (a : texts) : bool := match a with One _ => true | Many _ => false end.
Definition braced (s : text) : text := t_ "{" ++ s ++ t_ "}".
(** 159-172: a suffix before it is put in the template *)
Definition prepared (latex mathrm u sub : bool) (i : text) : text :=
  if latex then match i with [] => [] | _ => if mathrm then t_ "\mathrm{" ++ i ++ t_ "}" else braced i end
  else if u then to_unicode sub i else i.
Definition add_suffix (c : config) (strings suffix : texts) (sub : bool) (uni : option bool) (latex mathrm : bool) : res texts :=
  let u := match uni with Some b => b | None => c_unicode c end in
  let l := items strings in let s := items suffix in
  if negb (length l =? length s) then Err ValueError else
  let template := if latex then (if sub then c_lsub c else c_lsup c) else if u then t_ "%s" else if sub then c_sub c else c_sup c in
  let s := map (prepared latex mathrm u sub) s in
  let l := map (fun i => if latex then braced i else i) l in
  bind (mapE (fun '(i, j) => match j with [] => Ok i | _ => bind (percent template j) (fun x => Ok (i ++ x)) end) (combine l s)) (fun r =>
  Ok (match r with [x] => if (is_one strings && is_one suffix)%bool then One x else Many r | _ => Many r end)).

(** ** infer/fit.py:123-139: labels of the components of a fit; a component is its name and the names of its data; those of its numbers
    come from the names joined with the data *)
Definition labels (c : config) (comps : list (str * str)) : res (list text) :=
  let num := suffix_num (map (fun p => fst p ++ snd p) comps) in
  bind (add_suffix c (Many (map (fun p => emb (fst p)) comps)) (Many (map emb num)) true None false false) (fun a =>
  bind (add_suffix c a (Many (map (fun p => emb (snd p)) comps)) false None false false) (fun a => Ok (items a))).
Definition latex_labels (c : config) (comps : list (str * str)) (latex : list text) : res (list text) :=
  let num := suffix_num (map (fun p => fst p ++ snd p) comps) in
  bind (add_suffix c (Many latex) (Many (map emb num)) true None true false) (fun a =>
  bind (add_suffix c a (Many (map (fun p => emb (snd p)) comps)) false None true true) (fun a => Ok (items a))).
End Format.
