(** Model of the brace decorator, pyx/deco.py l.915-1188.
    Floats are real numbers, lengths are in points, angles in degrees.  Paths are lists of lines and Bezier curves with all their points; None stands
    for an exception (ZeroDivisionError for a bar of length zero, TypeError for parallel tangents in deformer.intersection). *)
From Coq Require Import Reals List Bool.
From Verif Require Import TrafoModel CurveModel BoxModel DeformModel DecoModel.
Import ListNotations.
Open Scope R_scope.

Inductive bseg := BLine (a b : point) | BCurve (a b c d : point).
(** transformed and reversed of a path *)
Definition map_bseg (f : point -> point) (s : bseg) : bseg :=
  match s with BLine a b => BLine (f a) (f b) | BCurve a b c d => BCurve (f a) (f b) (f c) (f d) end.
Definition reverse_bseg (s : bseg) : bseg := match s with BLine a b => BLine b a | BCurve a b c d => BCurve d c b a end.
Definition reverse_bsegs (l : list bseg) : list bseg := rev (map reverse_bseg l).
(** p + s d, as the code writes it for each coordinate *)
Definition go (p : point) (s : R) (d : point) : point := (px p + s * px d, py p + s * py d).
Definition hyp (p : point) : R := sqrt (px p * px p + py p * py p).
(** __init__, l.957-980: the geometrical parameters *)
Record brace := {
  totalheight : R; barthickness : R; innerthickness : R; outerthickness : R; innerrelheight : R; outerrelheight : R;
  innerangle : R; outerangle : R; slantangle : R; innersmoothness : R; outersmoothness : R; middlerelpos : R }.

(** the angles as given to _halfbracepath_pt, l.989-991 *)
Record angles := { ci : R; si : R; co : R; so : R; cs : R; ss : R }.
(** the orientation path, l.1015-1035: q2, q5, q6, the unit vector of the bar, its length and the two lengths for smoothing *)
Definition q1 (height ithick : R) (a : angles) : point := (0, height - 1.5 * ithick + 0.5 * ithick / si a).
Definition q2 (height ithick ilength : R) (a : angles) : point :=
  let q := q1 height ithick a in (px q + ilength * si a, py q - ilength * ci a).
Definition q5 (length olength : R) (a : angles) : point := (length - olength * so a, 0 + olength * co a).
(** l.1025-1029: the second line of the correction uses the first length as already changed *)
Definition smoothlengths (norm is_ os_ : R) : R * R :=
  if ltb norm (is_ + os_)
  then let is2 := norm * is_ / (is_ + os_) in (is2, norm * os_ / (is2 + os_))
  else (is_, os_).

(** _halfbracepath_pt, l.989-1119 *)
Record halfpoints := {
  A1 : point; B1 : point; D1 : point; E1 : point; F1 : point; G1 : point; H1 : point; I1 : point;
  A2 : point; B2 : point; D2 : point; E2 : point; F2 : point; G2 : point; H2 : point; I2 : point; O_ : point; P_ : point }.
Definition half_points (b : brace) (length height ilength olength ithick othick bthick : R) (a : angles) : option halfpoints :=
  let q2 := q2 height ithick ilength a in
  let q5 := q5 length olength a in
  let bar := (px q5 - px q2, py q5 - py q2) in
  let norm := hyp bar in
  if Req_EM_T norm 0 then None else
  let dir := (px bar / norm, py bar / norm) in
  let sm := smoothlengths norm (ilength * innersmoothness b) (olength * outersmoothness b) in
  let q3 := go q2 (fst sm) dir in
  let q4 := go q5 (- snd sm) dir in
  let left := (- py dir, px dir) in
  let P := (0, height) in
  let A1 := (0, height - 1.5 * ithick) in
  let A2 := go A1 ithick (ci a, si a) in
  let D1 := go q3 (- bthick) left in
  let D2 := go q3 bthick left in
  let E1 := go q4 (- bthick) left in
  let E2 := go q4 bthick left in
  let q6 := (length, 0) in
  let I1 := go q6 (- (0.5 * othick)) (co a, so a) in
  let I2 := go q6 (0.5 * othick) (co a, so a) in
  let down := (si a, - ci a) in
  let up := (- so a, co a) in
  match intersection P A2 (cs a, ss a) down, intersection A1 D1 down dir, intersection A2 D2 down dir, intersection E1 I1 dir up, intersection E2 I2 dir up with
  | Some (s0, _), Some (_, t1), Some (_, t2), Some (s3, _), Some (s4, _) =>
      let G1 := go E1 s3 dir in
      let G2 := go E2 s4 dir in
      Some {| A1 := A1; B1 := go D1 t1 dir; D1 := D1; E1 := E1;
              F1 := (0.6 * px G1 + (1 - 0.6) * px E1, 0.6 * py G1 + (1 - 0.6) * py E1); G1 := G1; H1 := go I1 (2.5 * othick) up; I1 := I1;
              A2 := A2; B2 := go D2 t2 dir; D2 := D2; E2 := E2;
              F2 := (0.6 * px G2 + (1 - 0.6) * px E2, 0.6 * py G2 + (1 - 0.6) * py E2); G2 := G2; H2 := go I2 (2.5 * othick) up; I2 := I2;
              O_ := go P s0 (cs a, ss a); P_ := P |}
  | _, _, _, _, _ => None
  end.
(** l.1103-1117 *)
Definition half_path (h : halfpoints) : list bseg :=
  [BCurve (A1 h) (B1 h) (B1 h) (D1 h); BLine (D1 h) (E1 h); BCurve (E1 h) (F1 h) (G1 h) (H1 h); BCurve (H1 h) (I1 h) (I2 h) (H2 h);
   BCurve (H2 h) (G2 h) (F2 h) (E2 h); BLine (E2 h) (D2 h); BCurve (D2 h) (B2 h) (B2 h) (A2 h); BCurve (A2 h) (O_ h) (O_ h) (P_ h)].

(** _bracepath, l.1122-1167: the angles of a half with the slanting [sl] of its strokes (negative for the left half) *)
Definition half_angles (b : brace) (sl : R) : angles :=
  {| ci := cos (radians (0.5 * innerangle b + sl)); si := sin (radians (0.5 * innerangle b + sl));
     co := cos (radians (outerangle b + sl)); so := sin (radians (outerangle b + sl));
     cs := cos (radians (- slantangle b)); ss := sin (radians (- slantangle b)) |}.
Definition half (b : brace) (length sl : R) : option halfpoints :=
  let a := half_angles b sl in
  half_points b length (totalheight b) (innerrelheight b * totalheight b / ci a) (outerrelheight b * totalheight b / co a)
    (innerthickness b) (outerthickness b) (barthickness b) a.
(** trafo.mirror(90), l.1148 with trafo.py l.43-50 and 178-180 *)
Definition mirror90 (p : point) : point :=
  let phi := PI * 90 / 180 in
  ((cos phi * cos phi - sin phi * sin phi) * px p + - (2) * sin phi * cos phi * py p,
   - (2) * sin phi * cos phi * px p + (sin phi * sin phi - cos phi * cos phi) * py p).
(** the final trafo, l.1161-1166 *)
Definition placed (x0 y0 x1 y1 leftlength : R) (p : point) : point :=
  let phi := radians (degrees (atan2 (y1 - y0) (x1 - x0))) in
  let p1 := (px p + leftlength, py p + 0) in
  let p2 := (cos phi * px p1 - sin phi * py p1, sin phi * px p1 + cos phi * py p1) in
  (px p2 + x0, py p2 + y0).
Definition leftlength (b : brace) (x0 y0 x1 y1 : R) : R := middlerelpos b * hyp (x1 - x0, y1 - y0).
Definition bracepath (b : brace) (x0 y0 x1 y1 : R) : option (list bseg) :=
  let left := leftlength b x0 y0 x1 y1 in
  let right := hyp (x1 - x0, y1 - y0) - left in
  match half b left (- slantangle b), half b right (slantangle b) with
  | Some l, Some r =>
      Some (map (map_bseg (placed x0 y0 x1 y1 left)) (map (map_bseg mirror90) (reverse_bsegs (half_path l)) ++ half_path r))
  | _, _ => None
  end.

(** decorate, l.1170-1186: the two ends of the brace, from the ends of the path, its tangents there and reverse, stretch and dist *)
Definition stretched (s : R) (m p : point) : point := (px m + s * (px p - px m), py m + s * (py p - py m)).
Definition brace_ends (begin_ end_ tbegin tend : point) (reverse : bool) (stretch dist : option R) : point * point :=
  let '(p0, p1) := if reverse then (end_, begin_) else (begin_, end_) in
  let '(p0, p1) := match stretch with
                   | Some s => let m := (0.5 * (px p0 + px p1), 0.5 * (py p0 + py p1)) in (stretched s m p0, stretched s m p1)
                   | None => (p0, p1)
                   end in
  match dist with
  | Some d => (go p0 d (- py tbegin, px tbegin), go p1 d (- py tend, px tend))
  | None => (p0, p1)
  end.
