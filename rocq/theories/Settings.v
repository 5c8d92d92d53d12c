(** Model of the settings of spectral components that can be changed after construction: the integration rule (models/model.py:1706-1785
    [NumericalIntegral]), the abundances and cross-sections of absorption models (models/mul.py:302-427 [PhotonAbsorption], 466-635), the differentiation
    rule of python components (models/model.py:2001-2109). *)
From Coq Require Import Ascii String.
From Verif Require Import RBase Namespace HelperData HelperNames ModelAlg Components FiniteDiff.
From Coq Require Import List.
Open Scope list_scope.
Open Scope R_scope.

(** what a class fixes: its name in lower case, the accepted tables and the default ones, whether it is additive, whether it is a python component *)
Record zkind := { zk_name : str; zk_abunds : list str; zk_xsects : list str; zk_abund : str; zk_xsect : str; zk_add : bool; zk_py : bool }.
(** [_method], [_abund], [_xsect], [_grad_method], and the differentiation rule compiled into [_continuum_jit] / [_integral_jit] *)
Record zstate := { z_method : meth; z_abund : str; z_xsect : str; z_grad : fd_method; z_kept : option fd_method }.
Definition parse_method (s : str) : option meth := if str_eqb s (s2l "trapz") then Some Trapz else if str_eqb s (s2l "simpson") then Some Simpson else None.
Definition parse_grad (s : option str) : option fd_method :=
  match s with
  | None => Some Central (* model.py:2022-2023 *)
  | Some s => if str_eqb s (s2l "central") then Some Central else if str_eqb s (s2l "forward") then Some Forward else None
  end.
(** an evaluation function: the settings it was made with *)
Record zeval := { e_method : meth; e_abund : str; e_xsect : str; e_grad : fd_method }.
Inductive zop := ZMethod (s : str) | ZAbund (s : str) | ZXsect (s : str) | ZGrad (s : option str) | ZEval.
Definition zstep (k : zkind) (s : zstate) (o : zop) : zstate * option err * option zeval :=
  match o with
  | ZMethod v => (* model.py:1776-1784 *)
      match parse_method v with
      | Some m => ({| z_method := m; z_abund := z_abund s; z_xsect := z_xsect s; z_grad := z_grad s; z_kept := z_kept s |}, None, None)
      | None => (s, Some ValueError, None)
      end
  | ZAbund v => (* mul.py:395-401 *)
      if mem v (zk_abunds k) then ({| z_method := z_method s; z_abund := v; z_xsect := z_xsect s; z_grad := z_grad s; z_kept := z_kept s |}, None, None)
      else (s, Some ValueError, None)
  | ZXsect v => (* mul.py:414-420 *)
      if mem v (zk_xsects k) then ({| z_method := z_method s; z_abund := z_abund s; z_xsect := v; z_grad := z_grad s; z_kept := z_kept s |}, None, None)
      else (s, Some ValueError, None)
  | ZGrad v => (* model.py:2020-2030 *)
      match parse_grad v with
      | Some g => ({| z_method := z_method s; z_abund := z_abund s; z_xsect := z_xsect s; z_grad := g; z_kept := z_kept s |}, None, None)
      | None => (s, Some ValueError, None)
      end
  | ZEval => (* model.py:1722-1728, 2084-2109, mul.py:342-357: the compiled continuum of a python component is made once *)
      let g := match z_kept s with Some g => g | None => z_grad s end in
      ({| z_method := z_method s; z_abund := z_abund s; z_xsect := z_xsect s; z_grad := z_grad s; z_kept := Some g |}, None,
       Some {| e_method := z_method s; e_abund := z_abund s; e_xsect := z_xsect s; e_grad := g |})
  end.
Definition zrun (k : zkind) (s : zstate) (ops : list zop) : zstate := fold_left (fun s o => fst (fst (zstep k s o))) ops s.
(** construction: mul.py:318-340, model.py:1713-1720, 2006-2013, 2071-2080; arguments not given are [None] *)
Definition znew (k : zkind) (method abund xsect grad : option str) : res zstate :=
  let opt o d := match o with Some x => x | None => d end in
  let a := opt abund (zk_abund k) in let x := opt xsect (zk_xsect k) in
  if negb (mem a (zk_abunds k)) then Err ValueError else
  if negb (mem x (zk_xsects k)) then Err ValueError else
  match parse_method (opt method (s2l "trapz")), parse_grad grad with
  | Some m, Some g => Ok {| z_method := m; z_abund := a; z_xsect := x; z_grad := g; z_kept := None |}
  | _, _ => Err ValueError
  end.

(** ** absorption models: mul.py:287-300 and tables/generate_xsect_table.py:106-139 (the tables that exist) *)
Definition all_abund : list str := map s2l ["angr"; "aspl"; "feld"; "aneb"; "grsa"; "wilm"; "lodd"; "lpgp"; "lpgs"]%string.
Definition tables : list (str * str * str) :=
  flat_map (fun x => map (fun a => (s2l "phabs", x, a)) all_abund) (map s2l ["bcmc"; "obcm"; "vern"]%string)
  ++ map (fun a => (s2l "tbabs", s2l "vern", a)) all_abund ++ [(s2l "wabs", s2l "wabs", s2l "aneb")].
Definition has_table (n x a : str) : bool := existsb (fun t => str_eqb n (fst (fst t)) && str_eqb x (snd (fst t)) && str_eqb a (snd t))%bool tables.
(** mul.py:466-635 *)
Definition PhAbs : zkind := {| zk_name := s2l "phabs"; zk_abunds := all_abund; zk_xsects := map s2l ["bcmc"; "obcm"; "vern"]%string; zk_abund := s2l "angr"; zk_xsect := s2l "vern"; zk_add := false; zk_py := false |}.
Definition TBAbs : zkind := {| zk_name := s2l "tbabs"; zk_abunds := all_abund; zk_xsects := [s2l "vern"]; zk_abund := s2l "wilm"; zk_xsect := s2l "vern"; zk_add := false; zk_py := false |}.
Definition WAbs : zkind := {| zk_name := s2l "wabs"; zk_abunds := [s2l "aneb"]; zk_xsects := [s2l "wabs"]; zk_abund := s2l "aneb"; zk_xsect := s2l "wabs"; zk_add := false; zk_py := false |}.
(** 359-386 with 342-357 and the integration rule; [logsigma]: the interpolated tables *)
Definition absorb (logsigma : str -> str -> str -> R -> R) (k : zkind) (e : zeval) (nH : R) (egrid : list R) : res (list R) :=
  if has_table (zk_name k) (e_xsect e) (e_abund e) then Ok (integrate (e_method e) false (photon_abs (logsigma (zk_name k) (e_xsect e) (e_abund e)) nH) egrid)
  else Err KeyError.
