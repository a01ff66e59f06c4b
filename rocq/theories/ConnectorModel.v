(** * Model of connectors: pyx/connector.py.  Boxes are given by their centers and outlines; coordinates are real numbers. *)

From Coq Require Import Reals List Bool.
From Verif Require Import CurveModel ArcSpec.
From Verif Require TrafoModel RootsModel.
Import ListNotations.
Open Scope R_scope.

Local Notation pt := (R * R)%type.
Definition radians := TrafoModel.radians.

(** What a connector draws before its ends are cut off: a straight line, an arc (counterclockwise) or arcn (clockwise) after a moveto, a curve,
    or two lines *)
Inductive shape :=
| Straight (p q : pt)
| CArc (p : pt) (x y r angle1 angle2 : R)
| CArcn (p : pt) (x y r angle1 angle2 : R)
| Bezier (p c1 c2 q : pt)
| Two (p m q : pt).

(** line_pt, l.81-93 *)
Definition line (c1 c2 : pt) : shape := Straight c1 c2.

(** arc_pt, l.96-150; None stands for the value None of an argument; epsilon is normpath._epsilon *)
Definition bulge (distance relangle : R) (absbulge relbulge : option R) : R :=
  match relbulge, absbulge with
  | None, None => 0.5 * distance * tan (0.5 * radians relangle)
  | _, _ => match absbulge with Some a => a | None => 0 end + match relbulge with Some r => r * distance | None => 0 end
  end.
Definition arc (epsilon : R) (c1 c2 : pt) (relangle : R) (absbulge relbulge : option R) : shape :=
  let (x1, y1) := c1 in let (x2, y2) := c2 in
  let distance := hypot (x2 - x1) (y2 - y1) in
  let tx := (x2 - x1) / distance in let ty := (y2 - y1) / distance in
  let b := bulge distance relangle absbulge relbulge in
  if Rlt_dec (Rabs b) epsilon then Straight c1 c2
  else
    let radius := Rabs (0.5 * (b + 0.25 * (distance * distance) / b)) in
    let centerdist := RootsModel.sign b * (radius - Rabs b) in
    let cx := 0.5 * (x1 + x2) + ty * centerdist in
    let cy := 0.5 * (y1 + y2) - tx * centerdist in
    let angle1 := atan2 (y1 - cy) (x1 - cx) in
    let angle2 := atan2 (y2 - cy) (x2 - cx) in
    if Rlt_dec 0 b then CArcn c1 cx cy radius (degrees angle1) (degrees angle2) else CArc c1 cx cy radius (degrees angle1) (degrees angle2).

(** curve_pt, l.153-206 *)
Definition curve (c1 c2 : pt) (relangle1 relangle2 : R) (absangle1 absangle2 : option R) (absbulge relbulge : R) : shape :=
  let (x1, y1) := c1 in let (x2, y2) := c2 in
  let distance := hypot (x2 - x1) (y2 - y1) in
  let dangle := atan2 (y2 - y1) (x2 - x1) in
  let b := Rabs (distance * relbulge + absbulge) in
  let angle1 := match absangle1 with Some a => radians a | None => dangle + radians relangle1 end in
  let angle2 := match absangle2 with Some a => radians a | None => dangle + radians relangle2 end in
  Bezier c1 (x1 + cos angle1 * b, y1 + sin angle1 * b) (x2 - cos angle2 * b, y2 - sin angle2 * b) c2.
(** the default arguments, l.98, 155-158 *)
Definition default_curve (c1 c2 : pt) : shape := curve c1 c2 45 45 None None 0 0.39.
Definition default_arc (epsilon : R) (c1 c2 : pt) : shape := arc epsilon c1 c2 45 None None.

(** twolines_pt, l.209-323 *)
Definition middle_a (begin : pt) (dangle length1 angle1 : R) : pt :=
  (fst begin + length1 * cos (dangle - angle1), snd begin + length1 * sin (dangle - angle1)).
Definition middle_b (end_ : pt) (dangle length2 angle2 : R) : pt := middle_a end_ (- PI + dangle) length2 (- angle2).
Definition missinglength (lenA lenB angleA : R) : R :=
  let tmp1 := lenB * cos angleA in
  let tmp2 := sqrt (tmp1 * tmp1 - lenB * lenB + lenA * lenA) in
  if Rlt_dec tmp2 tmp1 then tmp1 - tmp2 else tmp1 + tmp2.
Definition given (o : option R) : nat := match o with Some _ => 1%nat | None => 0%nat end.
(** None is the NotImplementedError; the errors of sqrt, acos and the division by zero are not modelled (sqrt of a negative number is 0 here)
    and are excluded by the hypotheses of the theorems.  The arguments bezierradius, beziersoftness and arcradius are not used by the code. *)
Definition twolines (c1 c2 : pt) (absangle1 absangle2 relangle1 relangle2 relangleM length1 length2 : option R) : option shape :=
  let (x1, y1) := c1 in let (x2, y2) := c2 in
  let distance := hypot (x2 - x1) (y2 - y1) in
  let dangle := atan2 (y2 - y1) (x2 - x1) in
  let relangle1 := match absangle1 with Some a => Some (dangle - radians a) | None => option_map radians relangle1 end in
  let relangle2 := match absangle2 with Some a => Some (PI - dangle + radians a) | None => option_map radians relangle2 end in
  let relangleM := option_map radians relangleM in
  let no_angles := (given relangle1 + given relangle2 + given relangleM)%nat in
  let no_lengths := (given length1 + given length2)%nat in
  if negb (Nat.eqb (no_angles + no_lengths) 2) then None
  else
    let cosine l1 l2 := acos ((distance * distance + l1 * l1 - l2 * l2) / (2.0 * distance * l1)) in
    let middle :=
      match relangle1, relangle2, relangleM, length1, length2 with
      | None, Some a2, Some aM, _, _ => Some (middle_a c1 dangle (distance * Rabs (sin a2 / sin aM)) (PI - a2 - aM))
      | Some a1, None, Some aM, _, _ => Some (middle_a c1 dangle (distance * Rabs (sin (PI - a1 - aM) / sin aM)) a1)
      | Some a1, Some a2, None, _, _ => Some (middle_a c1 dangle (distance * Rabs (sin a2 / sin (PI - a1 - a2))) a1)
      | _, _, _, Some l1, Some l2 => Some (middle_a c1 dangle l1 (cosine l1 l2))
      | Some a1, _, _, Some l1, _ => Some (middle_a c1 dangle l1 a1)
      | Some a1, _, _, _, Some l2 => Some (middle_a c1 dangle (missinglength l2 distance a1) a1)
      | _, Some a2, _, Some l1, _ => Some (middle_b c2 dangle (missinglength l1 distance a2) a2)
      | _, Some a2, _, _, Some l2 => Some (middle_b c2 dangle l2 a2)
      | _, _, Some aM, Some l1, _ => Some (middle_a c1 dangle l1 (cosine l1 (missinglength distance l1 aM)))
      | _, _, Some aM, _, Some l2 => let l1 := missinglength distance l2 aM in Some (middle_a c1 dangle l1 (cosine l1 l2))
      | _, _, _, _, _ => None
      end in
    match middle with Some m => Some (Two c1 m c2) | None => None end.

(** ** Cutting the ends: omitends and shortenpath, l.34-74.  The connector is the range a..b of the parameters of its path; meets a b lists
    the parameters of the intersections of this range with an outline in ascending order (normpath.intersect); split at one of them gives two
    parts. None is the IndexError. *)
Definition range := (R * R)%type.
Definition cut_begin (meets : R -> R -> list R) (r : range) : range :=
  let sp := meets (fst r) (snd r) in match sp with [] => r | _ => (last sp 0, snd r) end.
Definition cut_end (meets : R -> R -> list R) (r : range) : range :=
  match meets (fst r) (snd r) with [] => r | s :: _ => (fst r, s) end.
Definition omitends (meets1 meets2 : R -> R -> list R) (r : range) : range := cut_end meets2 (cut_begin meets1 r).
(** l.53-62: circle1 and circle2 are the intersections with the circles around the first and the last point, None for a circle without extent;
    split without parameters gives a single part *)
Definition shorten_begin (circle : option (R -> R -> list R)) (r : range) : option range :=
  match circle with
  | None => Some r
  | Some meets => let sp := meets (fst r) (snd r) in match sp with [] => None | _ => Some (last sp 0, snd r) end
  end.
(** l.64-74 *)
Definition shorten_end (circle : option (R -> R -> list R)) (r : range) : range :=
  match circle with None => r | Some meets => cut_end meets r end.
