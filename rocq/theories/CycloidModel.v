(** Model of the cycloids which are wrapped around subpaths: pyx/deformer.py, l.365-506 (cycloid), with real numbers for floats and lengths in points.  The subpath
    is given by its length, the local coordinate systems at its points (normsubpath.trafo, at a given arc length) and its curvatures there, so it may be any path; the
    functions which compute these are modelled elsewhere.  A curvature which is not defined (at a singular point) is not modelled. *)
From Coq Require Import Reals List.
From Verif Require Import TrafoModel RootsModel.
Import ListNotations.
Open Scope R_scope.

Record base := mkbase { total : R; frame : R -> trafo; curvature : R -> R }.
(** the attributes, l.380-388; halfloops and curvesperhloop are not negative *)
Record cycloid := mkcycloid { c_radius : R; halfloops : nat; c_skipfirst : R; c_skiplast : R; perloop : nat; c_sign : R; c_turn : R }.
Definition point := (R * R)%type.
(** items of the new subpath: the part of the old one up to a length or from there on, and curves *)
Inductive piece := Start (z : R) | Curve (p0 p1 p2 p3 : point) | End (z : R).
(** the old subpath itself (l.430), new items, or an exception (division by zero) *)
Inductive result := Unchanged | Deformed (l : list piece) | Error.

Section Deform.
Variables (b : base) (c : cycloid).
(** l.416-423 *)
Definition skipfirst : R := Rabs (c_skipfirst c).
Definition skiplast : R := Rabs (c_skiplast c).
Definition radius : R := Rabs (c_radius c).
Definition sgn : R := sign (c_sign c).
Definition cosTurn : R := cos (radians (c_turn c)).
Definition sinTurn : R := sin (radians (c_turn c)).
(** l.435-437 *)
Definition Dphi : R := PI / INR (perloop c).
Definition phis : list R := map (fun i => INR i * Dphi) (seq 0 (halfloops c * perloop c + 1)).
Definition DzDphi : R := (total b - skipfirst - skiplast - 2 * radius * sinTurn) * 1 / (INR (halfloops c) * PI * cosTurn).
(** l.442 *)
Definition handle : R := 4 * radius * (1 - cos (Dphi / 2)) / (3 * sin (Dphi / 2)).
(** an element of Zs, l.445-446 *)
Definition place (phi : R) : R := skipfirst + radius * sinTurn - sinTurn * radius * cos phi + cosTurn * DzDphi * phi.
(** an element of points, l.452-486; a curvature of zero is the ArithmeticError of l.472 *)
Definition points_at (phi : R) : point * point * point :=
  let t := frame b (place phi) in
  let baseZ := 0 in
  let baseY := radius * sin phi in
  let tangentX := - cosTurn * radius * sin phi + sinTurn * DzDphi in
  let tangentY := radius * cos phi in
  let tangentZ := sinTurn * radius * sin phi + DzDphi * cosTurn in
  let norm := sqrt (tangentX * tangentX + tangentY * tangentY + tangentZ * tangentZ) in
  let tangentY := tangentY / norm in
  let tangentZ := tangentZ / norm in
  let k := curvature b (place phi) in
  let factor := if Req_EM_T k 0 then 1 else Rabs ((1 / k - baseY) / (1 / k)) in
  let l := handle * factor in
  (apply_pt t (baseZ - l * tangentZ, sgn * (baseY - l * tangentY)), apply_pt t (baseZ, sgn * baseY), apply_pt t (baseZ + l * tangentZ, sgn * (baseY + l * tangentY))).
(** the curves of l.496-500 *)
Fixpoint curves (l : list (point * point * point)) : list piece :=
  match l with
  | (_, p, post) :: (((pre, q, _) :: _) as l') => Curve p post pre q :: curves l'
  | _ => []
  end.
(** deformsubpath, l.414-506; the first and last element of params are those of the first and last of Zs.  cosTurn is not exactly zero with floats. *)
Definition deformsubpath (epsilon : R) : result :=
  if Rle_dec (total b) (skipfirst + skiplast + 2 * radius * sinTurn) then Unchanged
  else if Req_EM_T (INR (perloop c)) 0 then Error
  else if Req_EM_T (INR (halfloops c) * PI * cosTurn) 0 then Error
  else Deformed ((if Rgt_dec skipfirst epsilon then [Start (place 0)] else []) ++ curves (map points_at phis) ++
                 (if Rgt_dec skiplast epsilon then [End (place (INR (halfloops c * perloop c) * Dphi))] else [])).
End Deform.
