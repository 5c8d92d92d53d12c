(** Model of the model algebra of models/model.py and of models/conv.py. *)
From Verif Require Import RBase Expr.
From Coq Require Import List.

(** models/model.py:168-171: model types *)
Inductive mtype := Madd | Mmul | Mconv.
Definition mtype_eqb (a b : mtype) : bool :=
  match a, b with Madd, Madd | Mmul, Mmul | Mconv, Mconv => true | _, _ => false end.

Inductive mop := MPlus | MTimes.

(** A model expression.  Components are identified by their [_id] (a number).
    [MUni] : [UniComponentModel] (model.py:1179-1201); [MOp]: [ConvolutionModel]
    (1877-1902, an operator that cannot be evaluated); [MBin]: [CompositeModel] (1204-1331);
    [MApp]: [ConvolvedModel] (1905-1959). *)
Inductive model :=
| MUni (cid : nat) (t : mtype)
| MOp (cid : nat) (supported : list mtype)
| MBin (o : mop) (l r : model)
| MApp (cid : nat) (m : model).

(** the [type] property: 1200-1201, 1900-1902, 1958-1959, 1330-1331 with 1234-1262 *)
Fixpoint type_of (m : model) : mtype :=
  match m with
  | MUni _ t => t
  | MOp _ _ => Mconv
  | MBin MPlus _ _ => Madd
  | MBin MTimes l r => match type_of l, type_of r with Madd, _ | _, Madd => Madd | _, _ => Mmul end
  | MApp _ m => type_of m
  end.

(** models/model.py:1213-1264 [CompositeModel.__init__]: which operands are legal *)
Definition mk_bin (o : mop) (l r : model) : res model :=
  match o with
  | MPlus => if negb (mtype_eqb (type_of l) Madd) then Err TypeError
             else if negb (mtype_eqb (type_of r) Madd) then Err TypeError
             else Ok (MBin MPlus l r)
  | MTimes => if (mtype_eqb (type_of l) Madd && mtype_eqb (type_of r) Madd)%bool then Err TypeError
              else if (mtype_eqb (type_of l) Mconv || mtype_eqb (type_of r) Mconv)%bool then Err TypeError
              else Ok (MBin MTimes l r)
  end.

(** models/model.py:1884-1893 [ConvolutionModel.__call__]; calling anything else is
    Python's own [TypeError] *)
Definition mk_app (op m : model) : res model :=
  match op with
  | MOp cid supp => if existsb (mtype_eqb (type_of m)) supp then Ok (MApp cid m) else Err TypeError
  | _ => Err TypeError
  end.

(** what a user can build: components, [+], [*], calls.  [_supported] is a subset of
    {'add', 'mul'} (model.py:1965, conv.py). *)
Inductive built : model -> Prop :=
| b_uni cid t : t <> Mconv -> built (MUni cid t)
| b_op cid supp : ~ In Mconv supp -> built (MOp cid supp)
| b_bin o l r m : built l -> built r -> mk_bin o l r = Ok m -> built m
| b_app op x m : built op -> built x -> mk_app op x = Ok m -> built m.

(** ** printing: models/model.py:1266-1284 and 1911-1918, with ids replaced by
    names ([_id_to_label], 186-200: textual replacement of the ids, here per token) *)
Definition is_plus (m : model) : bool := match m with MBin MPlus _ _ => true | _ => false end.
Definition mparen (b : bool) (ts : list tok) : list tok := if b then TL :: ts ++ [TR] else ts.
Fixpoint mlabel (nm : nat -> string) (m : model) : list tok :=
  match m with
  | MUni c _ | MOp c _ => [TName (nm c)]
  | MBin MPlus l r => mlabel nm l ++ TAdd :: mlabel nm r
  | MBin MTimes l r => mparen (is_plus l) (mlabel nm l) ++ TMul :: mparen (is_plus r) (mlabel nm r)
  | MApp c m => TFun (nm c) :: TL :: mlabel nm m ++ [TR]
  end.

(** the LaTeX label puts every operand in braces, so it is determined by (and
    determines) this tree of component labels *)
Inductive ltree := LName (s : string) | LBin (o : mop) (a b : ltree) | LApp (s : string) (a : ltree).
Fixpoint llabel (nm : nat -> string) (m : model) : ltree :=
  match m with
  | MUni c _ | MOp c _ => LName (nm c)
  | MBin o l r => LBin o (llabel nm l) (llabel nm r)
  | MApp c m => LApp (nm c) (llabel nm m)
  end.

(** ** evaluation: the value of a model is a function from an energy grid to one value
    per bin *)
Definition spectrum := list R -> list R.
Fixpoint map2 (f : R -> R -> R) (a b : list R) : list R :=
  match a, b with x :: a', y :: b' => f x y :: map2 f a' b' | _, _ => [] end.
Definition sadd (f g : spectrum) : spectrum := fun e => map2 Rplus (f e) (g e).
Definition smul (f g : spectrum) : spectrum := fun e => map2 Rmult (f e) (g e).

(** models/model.py:1189-1197, 1286-1295, 1946-1955: [comp] and [conv] are the
    component functions with their parameter values plugged in (a component function is
    arbitrary; a convolution sees the function it convolves). *)
Fixpoint meval (comp : nat -> spectrum) (conv : nat -> spectrum -> spectrum) (m : model) : spectrum :=
  match m with
  | MUni c _ => comp c
  | MOp c _ => comp c (* never evaluated: [eval] raises, model.py:1895-1897 *)
  | MBin MPlus l r => sadd (meval comp conv l) (meval comp conv r)
  | MBin MTimes l r => smul (meval comp conv l) (meval comp conv r)
  | MApp c m => conv c (meval comp conv m)
  end.

(** ** additive components: models/model.py:180-184, 1298-1327, 1926-1943 *)
Fixpoint additive_comps (m : model) : list model :=
  if negb (mtype_eqb (type_of m) Madd) then [] else
  match m with
  | MUni _ _ | MOp _ _ => [m]
  | MBin MPlus l r => additive_comps l ++ additive_comps r
  | MBin MTimes l r =>
      if mtype_eqb (type_of l) Madd then
        let cs := additive_comps l in
        if 2 <=? length cs then map (fun c => MBin MTimes c r) cs else [m]
      else
        let cs := additive_comps r in
        if 2 <=? length cs then map (fun c => MBin MTimes l c) cs else [m]
  | MApp c x =>
      let cs := additive_comps x in
      if 2 <=? length cs then map (MApp c) cs else [m]
  end.

(** a python dict keyed by label *)
Definition ltree_eq_dec : forall a b : ltree, {a = b} + {a <> b}.
Proof. repeat decide equality. Defined.
Fixpoint lput {V} (d : list (ltree * V)) (k : ltree) (v : V) : list (ltree * V) :=
  match d with
  | [] => [(k, v)]
  | (k', v') :: r => if ltree_eq_dec k k' then (k', v) :: r else (k', v') :: lput r k v
  end.
(** models/model.py:221-245 [_compile_additive_fn]: [dict(zip(labels, values))];
    [None] when there are fewer than two components *)
Definition comps_dict (nm : nat -> string) comp conv (m : model) : option (list (ltree * spectrum)) :=
  let cs := additive_comps m in
  if length cs <=? 1 then None
  else Some (fold_left (fun d c => lput d (llabel nm c) (meval comp conv c)) cs []).

(** ** convolutions of models/conv.py; [scale k g] is [egrid * k] *)
Definition scale_grid (k : R) (e : list R) : list R := map (Rmult k) e.
Definition vscale (k : R) (v : list R) : list R := map (Rmult k) v.
(** conv.py:288-294 [ZAShift.convolve] *)
Definition zashift (z : R) (f : spectrum) : spectrum := fun e => map (fun v => v / (1 + z)) (f (scale_grid (1 + z) e)).
(** conv.py:327-334 [ZMShift.convolve] *)
Definition zmshift (z : R) (f : spectrum) : spectrum := fun e => f (scale_grid (1 + z) e).
(** conv.py:365-374 and 405-414 [VAShift.convolve], [VMShift.convolve] *)
Definition light : R := 299792458 / 1000.
Definition vshift (v : R) (f : spectrum) : spectrum := fun e => f (scale_grid (1 - v / light) e).
(** conv.py:180-190 [PhFlux.convolve] with [flux_egrid] fixed *)
Definition phflux (F : R) (fg : list R) (f : spectrum) : spectrum :=
  fun e => let mflux := rsum (f fg) in vscale (F / mflux) (f e).
(** [jnp.sqrt(g[:-1] * g[1:])] and [jnp.diff(g)] *)
Fixpoint emid (g : list R) : list R :=
  match g with a :: ((b :: _) as r) => sqrt (a * b) :: emid r | _ => [] end.
Fixpoint diff (g : list R) : list R :=
  match g with a :: ((b :: _) as r) => (b - a) :: diff r | _ => [] end.
Definition keV_to_erg : R := 1602176634 / 10 ^ 18.
(** conv.py:239-253 [EnFlux.convolve] *)
Definition enflux (F : R) (fg : list R) (f : spectrum) : spectrum :=
  fun e => let mflux := rsum (map2 Rmult (map (Rmult keV_to_erg) (emid fg)) (f fg)) in vscale (F / mflux) (f e).

(** ** derived quantities of [CompiledModel] *)
(** models/model.py:438-477 [ne] *)
Definition ne (f : spectrum) (g : list R) : list R := map2 Rdiv (f g) (diff g).
(** models/model.py:479-520 [ene] *)
Definition ene (f : spectrum) (g : list R) : list R := map2 Rmult (map (Rmult keV_to_erg) (emid g)) (ne f g).
(** models/model.py:522-563 [eene] *)
Fixpoint e2s (g : list R) : list R := match g with a :: ((b :: _) as r) => a * b :: e2s r | _ => [] end.
Definition eene (f : spectrum) (g : list R) : list R := map2 Rmult (map (Rmult keV_to_erg) (e2s g)) (ne f g).
(** models/model.py:613-676 [flux] on the energy grid [g] it builds (662-665) *)
Definition flux (energy : bool) (f : spectrum) (g : list R) : R :=
  rsum (map2 Rmult ((if energy then ene else ne) f g) (diff g)).
(** models/model.py:565-611 [ce]: [(v * de) @ resp / width]; [resp] given by columns *)
Definition vdot (a b : list R) : R := rsum (map2 Rmult a b).
Definition ce (f : spectrum) (g : list R) (cols : list (list R)) (width : list R) : list R :=
  map2 Rdiv (map (vdot (map2 Rmult (ne f g) (diff g))) cols) width.

(** energy grids, models/model.py:662-665, conv.py:79-82: [jnp.linspace], [jnp.geomspace]
    ([n] points, both ends included) *)
Definition linspace (a b : R) (n : nat) : list R :=
  map (fun i => a + INR i * ((b - a) / INR (n - 1))) (seq 0 n).
Definition geomspace (a b : R) (n : nat) : list R :=
  map (fun i => a * exp (INR i * (ln (b / a) / INR (n - 1)))) (seq 0 n).
Definition mk_grid (log : bool) (a b : R) (n : nat) : list R := if log then geomspace a b n else linspace a b n.

(** ** [NormConvolution] as a state machine: conv.py:22-133 *)
Record nconf := { n_emin : R; n_emax : R; n_grid : nat; n_log : bool }.
Record nstate := { n_conf : nconf; n_prev : option nconf;
                   n_jit : option (list R) (* the flux grid captured by [_convolve_jit] *) }.
Definition nconf_eqb (a b : nconf) : bool :=
  (Reqb (n_emin a) (n_emin b) && Reqb (n_emax a) (n_emax b) && Nat.eqb (n_grid a) (n_grid b) && Bool.eqb (n_log a) (n_log b))%bool.
(** conv.py:27-44 [__init__] *)
Definition ninit (emin emax : R) (ngrid : option nat) (elog : option bool) : res nstate :=
  if Rleb emax emin then Err ValueError
  else Ok {| n_conf := {| n_emin := emin; n_emax := emax;
                          n_grid := match ngrid with Some n => n | None => 1000 end;
                          n_log := match elog with Some b => b | None => true end |};
             n_prev := None; n_jit := None |}.
Inductive nop := NSetEmin (v : R) | NSetEmax (v : R) | NSetNgrid (n : nat) | NSetElog (b : bool) | NEval.
Definition with_conf (s : nstate) (c : nconf) : nstate := {| n_conf := c; n_prev := n_prev s; n_jit := n_jit s |}.
(** conv.py:74-100 [eval] and 102-133 the setters; the result of [NEval] is the grid
    used by the function it returns *)
Definition nstep (s : nstate) (o : nop) : nstate * option err * option (list R) :=
  let c := n_conf s in
  match o with
  | NSetEmin v => if Rleb (n_emax c) v then (s, Some ValueError, None)
                  else (with_conf s {| n_emin := v; n_emax := n_emax c; n_grid := n_grid c; n_log := n_log c |}, None, None)
  | NSetEmax v => if Rleb v (n_emin c) then (s, Some ValueError, None)
                  else (with_conf s {| n_emin := n_emin c; n_emax := v; n_grid := n_grid c; n_log := n_log c |}, None, None)
  | NSetNgrid n => (with_conf s {| n_emin := n_emin c; n_emax := n_emax c; n_grid := n; n_log := n_log c |}, None, None)
  | NSetElog b => (with_conf s {| n_emin := n_emin c; n_emax := n_emax c; n_grid := n_grid c; n_log := b |}, None, None)
  | NEval =>
      let hit := match n_prev s with Some p => nconf_eqb p c | None => false end in
      if hit then (s, None, n_jit s)
      else let g := mk_grid (n_log c) (n_emin c) (n_emax c) (n_grid c) in
           ({| n_conf := c; n_prev := Some c; n_jit := Some g |}, None, Some g)
  end.
Definition nrun (s : nstate) (ops : list nop) : nstate := fold_left (fun s o => fst (fst (nstep s o))) ops s.

(** ** numerical integration of a component: models/model.py:1731-1760
    [NumericalIntegral._make_integral]; [c] is the component's continuum at one energy
    (jnp works elementwise), [add] whether the component is additive.
    [f_grid[:-1] + f_grid[1:]] etc. are written bin by bin. *)
Fixpoint trapz (add : bool) (c : R -> R) (g : list R) : list R :=
  match g with
  | a :: ((b :: _) as r) => (if add then 1 / 2 * (b - a) else 1 / 2) * (c a + c b) :: trapz add c r
  | _ => []
  end.
Fixpoint simpson (add : bool) (c : R -> R) (g : list R) : list R :=
  match g with
  | a :: ((b :: _) as r) =>
      (if add then (b - a) / 6 else 1 / 6) * (c a + 4 * c (1 / 2 * (a + b)) + c b) :: simpson add c r
  | _ => []
  end.
(** an analytical component (models/model.py:1684-1704) given by an antiderivative,
    as in [_powerlaw_integral] (models/add.py:40-50): [f[1:] - f[:-1]] *)
Fixpoint anaint (F : R -> R) (g : list R) : list R :=
  match g with a :: ((b :: _) as r) => F b - F a :: anaint F r | _ => [] end.
