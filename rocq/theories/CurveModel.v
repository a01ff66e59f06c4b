(** Model of the lines and Bezier curves of pyx/normpath.py (l.158-780) and of
    _bezierpolyrange of pyx/path.py (l.45-69), with real numbers for floats.

    Pairs of coordinates are points.  Output methods, intersections of curves and the
    conversion of arc lengths of curves to parameters are not modelled here. *)
From Coq Require Import Reals List.
From Verif Require Import TrafoModel BboxModel.
Import ListNotations.
Open Scope R_scope.

Local Notation pt := (R * R)%type.
Definition hypot (x y : R) : R := sqrt (x * x + y * y).
Definition leb (x y : R) : bool := if Rle_dec x y then true else false.

(** normline_pt and normcurve_pt, l.164-168, 371-379 *)
Inductive item := Line (p0 p1 : pt) | Curve (p0 p1 p2 p3 : pt).

(** atbegin_pt and atend_pt, l.189-193, 519-523 *)
Definition atbegin_pt (i : item) : pt := match i with Line p0 _ => p0 | Curve p0 _ _ _ => p0 end.
Definition atend_pt (i : item) : pt := match i with Line _ p1 => p1 | Curve _ _ _ p3 => p3 end.

(** at_pt for one parameter, l.185-187, 508-517 *)
Definition curve_coord (x0 x1 x2 x3 t : R) : R :=
  (- x0 + 3 * x1 - 3 * x2 + x3) * t * t * t + (3 * x0 - 6 * x1 + 3 * x2) * t * t + (-3 * x0 + 3 * x1) * t + x0.
Definition at_pt (i : item) (t : R) : pt :=
  match i with
  | Line (x0, y0) (x1, y1) => (x0 + (x1 - x0) * t, y0 + (y1 - y0) * t)
  | Curve (x0, y0) (x1, y1) (x2, y2) (x3, y3) => (curve_coord x0 x1 x2 x3 t, curve_coord y0 y1 y2 y3 t)
  end.

(** _bezierpolyrange, path.py:45-69 *)
Definition bezierpolyrange (x0 x1 x2 x3 : R) : R * R :=
  let a := x3 - 3 * x2 + 3 * x1 - x0 in
  let b := 2 * x0 - 4 * x1 + 2 * x2 in
  let c := x1 - x0 in
  let s := b * b - 4 * a * c in
  let extra :=
    if Rge_dec s 0 then
      let q := if Rge_dec b 0 then - (1 / 2) * (b + sqrt s) else - (1 / 2) * (b - sqrt s) in
      (if (ltb 0 q && ltb q a || ltb a q && ltb q 0)%bool then [q / a] else []) ++
      (if (ltb 0 c && ltb c q || ltb q c && ltb c 0)%bool then [c / q] else [])
    else [] in
  let p := fun t => ((a * t + 3 / 2 * b) * t + 3 * c) * t + x0 in
  (fold_left Rmin (map p (1 :: extra)) (p 0), fold_left Rmax (map p (1 :: extra)) (p 0)).

(** bbox and cbox, l.195-199, 525-535 *)
Definition item_bbox (i : item) : bbox :=
  match i with
  | Line (x0, y0) (x1, y1) => mkbbox (Some (Rmin x0 x1)) (Rmin y0 y1) (Rmax x0 x1) (Rmax y0 y1)
  | Curve (x0, y0) (x1, y1) (x2, y2) (x3, y3) =>
      let '(xmin, xmax) := bezierpolyrange x0 x1 x2 x3 in
      let '(ymin, ymax) := bezierpolyrange y0 y1 y2 y3 in
      mkbbox (Some xmin) ymin xmax ymax
  end.
Definition item_cbox (i : item) : bbox :=
  match i with
  | Line _ _ => item_bbox i
  | Curve (x0, y0) (x1, y1) (x2, y2) (x3, y3) =>
      mkbbox (Some (min4 x0 x1 x2 x3)) (min4 y0 y1 y2 y3) (max4 x0 x1 x2 x3) (max4 y0 y1 y2 y3)
  end.

(** modifiedbegin_pt and modifiedend_pt, l.310-314, 572-582 *)
Definition modifiedbegin_pt (i : item) (p : pt) : item :=
  match i with Line _ p1 => Line p p1 | Curve _ p1 p2 p3 => Curve p p1 p2 p3 end.
Definition modifiedend_pt (i : item) (p : pt) : item :=
  match i with Line p0 _ => Line p0 p | Curve p0 p1 p2 _ => Curve p0 p1 p2 p end.

(** reversed, l.325-326, 594-595 *)
Definition item_reversed (i : item) : item :=
  match i with Line p0 p1 => Line p1 p0 | Curve p0 p1 p2 p3 => Curve p3 p2 p1 p0 end.

(** transformed, l.350-351, 668-673 *)
Definition item_transformed (t : trafo) (i : item) : item :=
  match i with
  | Line p0 p1 => Line (apply_pt t p0) (apply_pt t p1)
  | Curve p0 p1 p2 p3 => Curve (apply_pt t p0) (apply_pt t p1) (apply_pt t p2) (apply_pt t p3)
  end.

(** segments, l.331-343, 609-660; a ValueError is [None] *)
Definition line_segment (p0 p1 : pt) (t t' : R) : item := Line (at_pt (Line p0 p1) t) (at_pt (Line p0 p1) t').
Definition segment_coord (x0 x1 x2 x3 t1 dt : R) : R * R * R * R :=
  let a0 := x0 in
  let a1 := 3 * (- x0 + x1) in
  let a2 := 3 * (x0 - 2 * x1 + x2) in
  let a3 := - x0 + 3 * (x1 - x2) + x3 in
  let s0 := a0 + a1 * t1 + a2 * t1 * t1 + a3 * t1 * t1 * t1 in
  let s1 := (a1 + 2 * a2 * t1 + 3 * a3 * t1 * t1) * dt / 3 + s0 in
  let s2 := (a2 + 3 * a3 * t1) * dt * dt / 3 - s0 + 2 * s1 in
  let s3 := a3 * dt * dt * dt + s0 - 3 * s1 + 3 * s2 in
  (s0, s1, s2, s3).
Definition curve_segment (p0 p1 p2 p3 : pt) (t t' : R) : item :=
  let '(x0, x1, x2, x3) := segment_coord (fst p0) (fst p1) (fst p2) (fst p3) t (t' - t) in
  let '(y0, y1, y2, y3) := segment_coord (snd p0) (snd p1) (snd p2) (snd p3) t (t' - t) in
  Curve (x0, y0) (x1, y1) (x2, y2) (x3, y3).
Definition segment (i : item) : R -> R -> item :=
  match i with Line p0 p1 => line_segment p0 p1 | Curve p0 p1 p2 p3 => curve_segment p0 p1 p2 p3 end.
Fixpoint pairs {A B} (f : A -> A -> B) (l : list A) : list B :=
  match l with
  | a :: ((b :: _) as l') => f a b :: pairs f l'
  | _ => []
  end.
Definition item_segments (i : item) (params : list R) : option (list item) :=
  match params with
  | _ :: _ :: _ => Some (pairs (segment i) params)
  | _ => None
  end.

(** _split without epsilon, l.385-426, 477-486 *)
Definition mix (s t : R) (p q : pt) : pt := (s * fst p + t * fst q, s * snd p + t * snd q).
Definition split (p0 p1 p2 p3 : pt) (t : R) : (pt * pt * pt * pt) * (pt * pt * pt * pt) :=
  let s := 1 - t in
  let p01 := mix s t p0 p1 in
  let p12 := mix s t p1 p2 in
  let p23 := mix s t p2 p3 in
  let p01_12 := mix s t p01 p12 in
  let p12_23 := mix s t p12 p23 in
  let mid := mix s t p01_12 p12_23 in
  ((p0, p01, p01_12, mid), (mid, p12_23, p23, p3)).

(** the lengths of l.430-433 *)
Definition dist (p q : pt) : R := hypot (fst q - fst p) (snd q - snd p).
Definition polygon (c : pt * pt * pt * pt) : R := let '(p0, p1, p2, p3) := c in dist p0 p1 + dist p1 p2 + dist p2 p3.
Definition chord (c : pt * pt * pt * pt) : R := let '(p0, _, _, p3) := c in dist p0 p3.
(** arclen_pt of a curve, l.504-506, with subcurve of _split, l.428-444, 475, and
    arclen_pt of the lines replacing curves, l.734-738.  [None] when [fuel] levels of
    recursion are not enough. *)
Fixpoint curve_arclen (fuel : nat) (upper : bool) (c : pt * pt * pt * pt) (epsilon : R) : option R :=
  match fuel with
  | O => None
  | S f =>
      let '(p0, p1, p2, p3) := c in
      let '(a, b) := split p0 p1 p2 p3 (1 / 2) in
      let sub := fun d => if Rlt_dec (polygon d - chord d) epsilon then Some (if upper then polygon d else chord d)
                          else curve_arclen f upper d (1 / 2 * epsilon) in
      match sub a, sub b with
      | Some x, Some y => Some (x + y)
      | _, _ => None
      end
  end.
(** arclen_pt of a line, l.182-183 *)
Definition line_arclen (p0 p1 : pt) : R := hypot (fst p0 - fst p1) (snd p0 - snd p1).

(** closepoint, l.233-249 *)
Definition clamp (p : R) : R := Rmin 1 (Rmax 0 p).
Definition closepoint (epsilon : R) (p q0 q1 : pt) : option R :=
  let '(x, y) := p in
  let '(x0, y0) := q0 in
  let '(x1, y1) := q1 in
  let s := clamp (((x0 - x) * (x0 - x1) + (y0 - y) * (y0 - y1)) / ((x1 - x0) * (x1 - x0) + (y1 - y0) * (y1 - y0))) in
  if Rlt_dec (hypot (x0 + s * (x1 - x0) - x) (y0 + s * (y1 - y0) - y)) epsilon then Some s else None.

(** intersect of two lines, l.204-306 *)
Definition line_intersect (epsilon : R) (a0 a1 b0 b1 : pt) : list (R * R) :=
  let adx := fst a1 - fst a0 in
  let ady := snd a1 - snd a0 in
  let bdx := fst b1 - fst b0 in
  let bdy := snd b1 - snd b0 in
  let invdet := bdx * ady - bdy * adx in
  if Rlt_dec (Rabs invdet) (epsilon * epsilon) then
    let short_self := Rlt_dec (hypot (fst a1 - fst a0) (snd a1 - snd a0)) epsilon in
    let short_other := Rlt_dec (hypot (fst b1 - fst b0) (snd b1 - snd b0)) epsilon in
    let s := (1 / 2 * (fst a0 + fst a1), 1 / 2 * (snd a0 + fst a1)) in          (* l.227-228 *)
    let o := (1 / 2 * (fst b0 + fst b1), 1 / 2 * (snd b0 + snd b1)) in
    match short_self, short_other with
    | left _, left _ => if Rlt_dec (hypot (fst o - fst s) (snd o - snd s)) epsilon then [(1 / 2, 1 / 2)] else []
    | left _, right _ => match closepoint epsilon s b0 b1 with Some p => [(1 / 2, p)] | None => [] end
    | right _, left _ => match closepoint epsilon o a0 a1 with Some p => [(p, 1 / 2)] | None => [] end
    | right _, right _ =>
        match closepoint epsilon a0 b0 b1 with
        | Some p => [(0, p)]
        | None => match closepoint epsilon a1 b0 b1 with
        | Some p => [(1, p)]
        | None => match closepoint epsilon b0 a0 a1 with
        | Some p => [(p, 0)]
        | None => match closepoint epsilon b1 a0 a1 with
        | Some p => [(p, 1)]
        | None => []
        end end end end
    end
  else
    let det := 1 / invdet in
    let bax := fst b0 - fst a0 in
    let bay := snd b0 - snd a0 in
    let a_t := (bdx * bay - bdy * bax) * det in
    let b_t := (adx * bay - ady * bax) * det in
    if (leb 0 a_t && leb a_t 1 && leb 0 b_t && leb b_t 1)%bool then [(a_t, b_t)]
    else
      let a_t := clamp a_t in
      let b_t := clamp b_t in
      let ax := fst a0 + adx * a_t in
      let ay := snd a0 + ady * a_t in
      let bx := fst b0 + bdx * b_t in
      let by_ := snd b0 + bdy * b_t in
      if Rlt_dec epsilon (hypot (ax - bx) (ay - by_)) then [] else [(a_t, b_t)].

(** rotation and trafo, l.328-329, 345-348, 597-607, 662-666.  [atan2 y x] is the function
    of the Python library. *)
Definition degrees (x : R) : R := x * 180 / PI.
Definition atan2 (y x : R) : R :=
  if Rlt_dec 0 x then atan (y / x)
  else if Rlt_dec x 0 then (if Rge_dec y 0 then atan (y / x) + PI else atan (y / x) - PI)
  else if Rlt_dec 0 y then PI / 2 else if Rlt_dec y 0 then - (PI / 2) else 0.
Definition tangent_coord (x0 x1 x2 x3 t : R) : R :=
  3 * (- x0 + 3 * x1 - 3 * x2 + x3) * t * t + 2 * (3 * x0 - 6 * x1 + 3 * x2) * t + (-3 * x0 + 3 * x1).
Definition rotate_degrees (angle : R) : trafo :=
  mktrafo (cos (radians angle)) (- sin (radians angle)) (sin (radians angle)) (cos (radians angle)) 0 0.
Definition item_rotation (i : item) (t : R) : trafo :=
  match i with
  | Line (x0, y0) (x1, y1) => rotate_degrees (degrees (atan2 (y1 - y0) (x1 - x0)))
  | Curve (x0, y0) (x1, y1) (x2, y2) (x3, y3) =>
      rotate_degrees (degrees (atan2 (tangent_coord y0 y1 y2 y3 t) (tangent_coord x0 x1 x2 x3 t)))
  end.
Definition item_trafo (i : item) (t : R) : trafo :=
  tmul (translate_pt (fst (at_pt i t)) (snd (at_pt i t))) (item_rotation i t).

(** curvature_pt, l.201-202, 537-557; dividing by zero is an exception, [None] *)
Definition dot_coord (x0 x1 x2 x3 t : R) : R :=
  3 * (1 - t) * (1 - t) * (- x0 + x1) + 6 * (1 - t) * t * (- x1 + x2) + 3 * t * t * (- x2 + x3).
Definition ddot_coord (x0 x1 x2 x3 t : R) : R :=
  6 * (1 - t) * (x0 - 2 * x1 + x2) + 6 * t * (x1 - 2 * x2 + x3).
Definition item_curvature (i : item) (t : R) : option R :=
  match i with
  | Line _ _ => Some 0
  | Curve (x0, y0) (x1, y1) (x2, y2) (x3, y3) =>
      let xdot := dot_coord x0 x1 x2 x3 t in
      let ydot := dot_coord y0 y1 y2 y3 t in
      let xddot := ddot_coord x0 x1 x2 x3 t in
      let yddot := ddot_coord y0 y1 y2 y3 t in
      if Req_EM_T (hypot xdot ydot) 0 then None else Some ((xdot * yddot - ydot * xddot) / (hypot xdot ydot) ^ 3)
  end.

(** x_pt, xdot_pt, xddot_pt, xdddot_pt (l.686-699), and those of y (l.701-714), as
    functions of the coordinates *)
Definition coord_0 (x0 x1 x2 x3 t : R) : R :=
  (((x3 - 3 * x2 + 3 * x1 - x0) * t + 3 * x0 - 6 * x1 + 3 * x2) * t + 3 * x1 - 3 * x0) * t + x0.
Definition coord_1 (x0 x1 x2 x3 t : R) : R :=
  ((3 * x3 - 9 * x2 + 9 * x1 - 3 * x0) * t + 6 * x0 - 12 * x1 + 6 * x2) * t + 3 * x1 - 3 * x0.
Definition coord_2 (x0 x1 x2 x3 t : R) : R :=
  (6 * x3 - 18 * x2 + 18 * x1 - 6 * x0) * t + 6 * x0 - 12 * x1 + 6 * x2.
Definition coord_3 (x0 x1 x2 x3 t : R) : R := 6 * x3 - 18 * x2 + 18 * x1 - 6 * x0.
