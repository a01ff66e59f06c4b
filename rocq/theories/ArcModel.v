(** Model of circular arcs in pyx/path.py (l.72-171), with real numbers for floats. *)
From Coq Require Import Reals List ZArith.
From Verif Require Import TrafoModel BboxModel CurveModel.
Import ListNotations.
Open Scope R_scope.

Local Notation pt := (R * R)%type.
(** the comparisons with == of l.77 and l.107 *)
Definition eqb (x y : R) : bool := if Req_EM_T x y then true else false.

(** _arctobcurve, l.72-90 *)
Definition arctobcurve (x y r phi1 phi2 : R) : option item :=
  let dphi := phi2 - phi1 in
  if eqb dphi 0 then None
  else
    let x0 := x + r * cos phi1 in
    let y0 := y + r * sin phi1 in
    let x3 := x + r * cos phi2 in
    let y3 := y + r * sin phi2 in
    let l := r * 4 * (1 - cos (dphi / 2)) / (3 * sin (dphi / 2)) in
    Some (Curve (x0, y0) (x0 - l * sin phi1, y0 + l * cos phi1) (x3 + l * sin phi2, y3 - l * cos phi2) (x3, y3)).

(** _arctobezierpath, l.93-116; int() truncates, here a number which is not negative *)
Definition arctobezierpath (x y r angle1 angle2 anglemax : R) : list (option item) :=
  let phi1 := radians angle1 in
  let phi2 := radians angle2 in
  let dphimax := radians anglemax in
  let phi2 :=
    if ltb phi2 phi1 then phi2 + (IZR (floor ((phi1 - phi2) / (2 * PI))) + 1) * 2 * PI
    else if ltb (phi1 + 2 * PI) phi2 then phi2 - (IZR (floor ((phi2 - phi1) / (2 * PI))) - 1) * 2 * PI
    else phi2 in
  if (eqb r 0 || eqb (phi1 - phi2) 0)%bool then []
  else
    let subdivisions := (floor ((phi2 - phi1) / dphimax) + 1)%Z in
    let dphi := (phi2 - phi1) / IZR subdivisions in
    map (fun i => arctobcurve x y r (phi1 + INR i * dphi) (phi1 + (INR i + 1) * dphi)) (seq 0 (Z.to_nat subdivisions)).

(** _arcpoint, l.118-120 *)
Definition arcpoint (x y r angle : R) : pt := (x + r * cos (radians angle), y + r * sin (radians angle)).

(** _arcbboxdata, l.122-171 *)
Definition arcbboxdata (x y r angle1 angle2 : R) : R * R * R * R :=
  let phi1 := radians angle1 in
  let phi2 := radians angle2 in
  let '(sx, sy) := arcpoint x y r angle1 in
  let '(ex, ey) := arcpoint x y r angle2 in
  let phi2 := if ltb phi2 phi1 then phi2 + (IZR (floor ((phi1 - phi2) / (2 * PI))) + 1) * 2 * PI else phi2 in
  let minx := if ltb phi2 ((2 * IZR (floor ((phi1 - PI) / (2 * PI))) + 3) * PI) then Rmin sx ex else x - r in
  let miny := if ltb phi2 ((2 * IZR (floor ((phi1 - 3 * PI / 2) / (2 * PI))) + 7 / 2) * PI) then Rmin sy ey else y - r in
  let maxx := if ltb phi2 ((2 * IZR (floor (phi1 / (2 * PI))) + 2) * PI) then Rmax sx ex else x + r in
  let maxy := if ltb phi2 ((2 * IZR (floor ((phi1 - PI / 2) / (2 * PI))) + 5 / 2) * PI) then Rmax sy ey else y + r in
  (minx, miny, maxx, maxy).
