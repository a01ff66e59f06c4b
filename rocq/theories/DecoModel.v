(** Model of decorators in pyx/deco.py: arrows (_arrowhead, l.454-489, arrow, l.494-552), text (l.587-629), curvedtext (l.631-687), linehatched
    (l.742-793) and colorgradient (l.889-912).
    Floats are real numbers, lengths are in points, angles in degrees.  A path is the function giving its point for an arc length
    (normpath.at with lengths as parameters, C56); parts of a path are parts of this function, with parameters starting at 0.  Boxes of texts are
    polygons (BoxModel). *)
From Coq Require Import Reals ZArith List Bool.
From Verif Require Import TrafoModel CurveModel BoxModel.
Import ListNotations.
Open Scope R_scope.

(** a piece of a path: its length and its points *)
Record piece := { plength : R; ppoint : R -> point }.
(** rotate and rotate_pt about a point, trafo.py l.183-202 with _rvector, l.36-39 *)
Definition rotate_about (angle : R) (c p : point) : point :=
  (cos (radians angle) * px p - sin (radians angle) * py p + ((1 - cos (radians angle)) * px c + sin (radians angle) * py c),
   sin (radians angle) * px p + cos (radians angle) * py p + (- sin (radians angle) * px c + (1 - cos (radians angle)) * py c)).
Definition map_piece (f : point -> point) (p : piece) : piece := {| plength := plength p; ppoint := fun s => f (ppoint p s) |}.
Definition reverse_piece (p : piece) : piece := {| plength := plength p; ppoint := fun s => ppoint p (plength p - s) |}.
Definition straight (a b : point) : piece :=
  let d := sqrt ((px b - px a) * (px b - px a) + (py b - py a) * (py b - py a)) in
  {| plength := d; ppoint := fun s => (px a + s / d * (px b - px a), py a + s / d * (py b - py a)) |}.

(** ** arrows *)
(** arrow.__init__, l.507-517: constrictionlen; the constriction may be None *)
Definition constrictionlen (size angle : R) (constriction : option R) : R :=
  match constriction with
  | Some c => size * c * cos (radians (angle / 2))
  | None => size * 1 * cos (radians (angle / 2))
  end.
(** arrow.decorate, l.538: the arc length of the tip *)
Definition arclenfrombegin (len pos : R) (reversed : bool) (clen : R) : R :=
  (1 - (if reversed then 1 else 0)) * clen + pos * (len - clen).
(** l.539 *)
Definition direction (reversed : bool) : R := if reversed then - (1) else 1.
(** _arrowhead, l.454-489: the pieces of the closed outline; arrowtemplate is the part of the path from the tip backwards *)
Definition arrowhead (at_ : R -> point) (t dir size angle : R) (constriction : bool) (clen : R) : list piece :=
  let tip := at_ t in
  let template := {| plength := size; ppoint := fun s => at_ (t - dir * s) |} in
  let arrowl := map_piece (rotate_about (- angle / 2) tip) template in
  let arrowr := map_piece (rotate_about (angle / 2) tip) template in
  if constriction
  then [reverse_piece arrowl; arrowr; straight (ppoint arrowr (plength arrowr)) (at_ (t - dir * clen))]
  else [reverse_piece arrowl; arrowr].
(** arrow.decorate, l.546-550: the range excluded from the stroke *)
Definition reqb (a b : R) : bool := if Req_EM_T a b then true else false.
Definition arrow_excludes (len pos : R) (reversed : bool) (size clen : R) : option (R * R) :=
  if reqb pos 0 && reversed then Some (0, Rmin size clen)
  else if reqb pos 1 && negb reversed then Some (len - Rmin size clen, len)
  else None.
(** arrow.decorate, l.534-543 *)
Definition arrow_outline (at_ : R -> point) (len pos : R) (reversed : bool) (size angle : R) (constriction : option R) : list piece :=
  let clen := constrictionlen size angle constriction in
  arrowhead at_ (arclenfrombegin len pos reversed clen) (direction reversed) size angle (match constriction with Some _ => true | None => false end) clen.

(** ** texts *)
(** where on the path, l.612-618 and 664-670 *)
Definition text_param (len relarclenpos : R) (frombegin fromend : option R) : R :=
  match frombegin, fromend with
  | Some a, _ => 0 + a
  | None, Some a => len - a
  | None, None => relarclenpos * len
  end.
(** text.decorate, l.605-629: the box of the text, typeset at the point of the path, moved; [rotation] is the linear part of the trafo of the path
    at the parameter *)
Definition text_angle (rotation : point -> point) (angle : R) (relangle : option R) : R :=
  match relangle with
  | Some r => let a := rotation (cos (r * PI / 180), sin (r * PI / 180)) in let b := rotation (0, 0) in atan2 (py a - py b) (px a - px b)
  | None => angle * PI / 180
  end.
(** l.627-628 *)
Definition decorate_text (rotation : point -> point) (angle : R) (relangle : option R) (textdist : R) (box : polygon) : polygon :=
  let a := text_angle rotation angle relangle in linealign box textdist (cos a) (sin a).
(** curvedtext.decorate, l.676-685: the trafo for an item with the center x of its box, applied to a point of the text;
    [ptrafo] is the trafo of the path for an arc length *)
Definition curved_point (ptrafo : R -> point -> point) (textpos x : R) (p : point) : point := ptrafo (textpos + x) (px p + - x, py p + 0).
(** l.684-685 *)
Definition curved_excludes (textpos left right exclude : R) : R * R := (textpos + left - exclude, textpos + right + exclude).

(** ** hatching, l.768-781 *)
(** l.774 *)
Definition hatch_center (llx lly urx ury : R) : point := (0.5 * (llx + urx), 0.5 * (lly + ury)).
(** l.775 *)
Definition hatch_radius (dist llx lly urx ury : R) : R := 0.5 * sqrt ((urx - llx) * (urx - llx) + (ury - lly) * (ury - lly)) + dist.
(** l.776-780; Int_part is int() of a positive number *)
Definition hatch_lines (dist angle llx lly urx ury : R) : list (point * point) :=
  let c := hatch_center llx lly urx ury in
  let r := hatch_radius dist llx lly urx ury in
  let n := (Int_part (2 * r / dist) + 1)%Z in
  map (fun i => let x := px c - r + INR i * dist in (rotate_about angle c (x, py c - r), rotate_about angle c (x, py c + r))) (seq 0 (Z.to_nat n)).
(** linehatched.decorate, l.783-786 *)
Definition hatched (dist angle : R) (cross : bool) (llx lly urx ury : R) : list (list (point * point)) :=
  hatch_lines dist angle llx lly urx ury :: (if cross then [hatch_lines dist (angle + 90) llx lly urx ury] else []).

(** ** color gradients along a path, l.897-912: the strokes in order, each with begin and end of the piece and its color;
    None stands for the IndexError for less than two steps; [select] is grad.select *)
Definition gradient_strokes {A} (select : nat -> nat -> A) (len : R) (steps : nat) : option (list (R * R * A)) :=
  let colors := rev (map (fun n => select n steps) (seq 0 steps)) in
  let params := rev (map (fun i => len * INR i / INR steps) (seq 0 steps)) in
  match nth_error params 1, nth_error params (steps - 2), nth_error colors 0, nth_error colors (steps - 1) with
  | Some p1, Some p2, Some c0, Some c1 =>
      Some ((p1, len, c0) ::
        map (fun n => (nth (n - 1) params 0, nth (n + 1) params 0, nth n colors c0)) (seq 1 (steps - 2)) ++
        [(0, p2, c1)])
  | _, _, _, _ => None
  end.
