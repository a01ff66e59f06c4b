(** Model of the patterns of pyx/pattern.py.  Floats are real numbers, lengths are in points; [real] is the bounding box of the pattern as returned by
    canvas.processPS and processPDF.  Exceptions are None. *)
From Coq Require Import Reals List ZArith.
From Verif Require Import TrafoModel BboxModel.
Import ListNotations.
Open Scope R_scope.

(** pattern.__init__, l.36-53: the arguments *)
Record pattern := mkpattern { p_paint : Z; p_tiling : Z; p_xstep : option R; p_ystep : option R; p_bbox : option bbox; p_trafo : option trafo; p_enlarge : option R }.
(** the arguments of a call, l.55-56: None is an argument that is not given *)
Record arguments := mkarguments { a_paint : option Z; a_tiling : option Z; a_xstep : option R; a_ystep : option R; a_bbox : option bbox; a_trafo : option trafo; a_enlarge : option R }.
(** what the new pattern gets as bbox: a box or None, or something else that is true: the class _marker if the argument is not given, and the method bbox of the canvas if it is *)
Inductive boxvalue := NoBox | ABox (b : bbox) | NotABox.
(** the attributes of the new pattern; None is the class _marker *)
Record called := mkcalled { k_paint : option Z; k_tiling : option Z; k_xstep : option (option R); k_ystep : option (option R); k_bbox : boxvalue }.
(** __call__, l.57-71, with the checks l.43-49: an argument that is given is replaced by the attribute, one that is not given stays _marker *)
Definition call (p : pattern) (a : arguments) : option called :=
  let k := mkcalled (match a_paint a with Some _ => Some (p_paint p) | None => None end) (match a_tiling a with Some _ => Some (p_tiling p) | None => None end)
             (match a_xstep a with Some _ => Some (p_xstep p) | None => None end) (match a_ystep a with Some _ => Some (p_ystep p) | None => None end)
             (match a_bbox a with Some _ => NotABox | None => NotABox end) in
  match k_paint k, k_tiling k with
  | Some pt, Some ty => if (andb (Z.eqb pt 1 || Z.eqb pt 2) (Z.eqb ty 1 || Z.eqb ty 2 || Z.eqb ty 3))%bool then Some k else None
  | _, _ => None
  end.

Definition zero (x : R) : bool := if Req_EM_T x 0 then true else false.
(** the steps, l.80-91 and l.127-138 *)
Definition step (s : option R) (size : option R) : option R :=
  match (match s with Some v => Some v | None => size end) with Some v => if zero v then None else Some v | None => None end.
(** the bounding box, l.92-97 and l.139-144; an empty patternbbox is false, and bboxenlarge 0 is false *)
Definition cell (p : pattern) (real : bbox) : bbox :=
  match p_bbox p with
  | Some b => if nonempty b then b else match p_enlarge p with Some e => if zero e then real else enlarge_pt real e None None None None | None => real end
  | None => match p_enlarge p with Some e => if zero e then real else enlarge_pt real e None None None None | None => real end
  end.
(** processPS, l.73-116: what is written: the box, the steps and the matrix *)
Record written := mkwritten { w_llx : R; w_lly : R; w_urx : R; w_ury : R; w_xstep : R; w_ystep : R; w_matrix : trafo }.
Definition matrix (p : pattern) : trafo := match p_trafo p with Some t => t | None => mktrafo 1 0 0 1 0 0 end.
Definition ps_pattern (p : pattern) (real : bbox) : option written :=
  match step (p_xstep p) (width_pt real), step (p_ystep p) (height_pt real), highrestuple_pt (cell p real) with
  | Some xs, Some ys, Some (x1, y1, x2, y2) => Some (mkwritten x1 y1 x2 y2 xs ys (matrix p))
  | _, _, _ => None
  end.
(** processPS of the pattern returned by a call: unit.topt of _marker is an error (l.83, 87), and so is the method highrestuple_pt of something that is no box (l.103) *)
Definition ps_called (k : called) (real : bbox) : option (R * R * R * R) :=
  match k_xstep k, k_ystep k with
  | Some xs, Some ys =>
      match step xs (width_pt real), step ys (height_pt real) with
      | Some _, Some _ => match k_bbox k with NotABox => None | ABox b => if nonempty b then highrestuple_pt b else highrestuple_pt real | NoBox => highrestuple_pt real end
      | _, _ => None
      end
  | _, _ => None
  end.
(** processPDF, l.118-148, and PDFpattern.write, l.331-355: the box is rounded to whole numbers *)
Definition pdf_pattern (p : pattern) (real : bbox) : option written :=
  match step (p_xstep p) (width_pt real), step (p_ystep p) (height_pt real), lowrestuple_pt (cell p real) with
  | Some xs, Some ys, Some (x1, y1, x2, y2) => Some (mkwritten (IZR x1) (IZR y1) (IZR x2) (IZR y2) xs ys (matrix p))
  | _, _, _ => None
  end.
(** processSVGattrs, l.162-175, and SVGpattern.output, l.365-387: the view box, width and height and the matrix of SVG *)
Record svgpattern := mksvgpattern { s_x : R; s_y : R; s_width : R; s_height : R; s_matrix : R * R * R * R * R * R }.
Definition svg_pattern (p : pattern) (real : bbox) : option svgpattern :=
  if negb (Z.eqb (p_paint p) 1) then None
  else match p_xstep p, p_ystep p, p_enlarge p with
       | None, None, None =>
           match highrestuple_pt (match p_bbox p with Some b => if nonempty b then b else real | None => real end) with
           | Some (x1, y1, x2, y2) => Some (mksvgpattern x1 (- y2) (x2 - x1) (y2 - y1) (svgmatrix (matrix p)))
           | None => None
           end
       | _, _, _ => None
       end.

(** hatched, l.183-199: the pattern, and the bounding box of its line with the line width, deco.py l.197 *)
Definition hatched (dist : R) (t : trafo) : pattern := mkpattern 1 1 (Some dist) (Some 100) None (Some t) None.
Definition hatched_real (lw : R) : bbox := enlarge_pt (mkbbox (Some 0) (- (50)) 0 50) (0.5 * lw) None None None None.
(** what is drawn in it: the stroke of the line of l.191 with butt caps *)
Definition hatched_drawn (lw : R) (q : R * R) : Prop := Rabs (fst q) <= lw / 2 /\ - (50) <= snd q <= 50.
(** crosshatched, l.263-280 *)
Definition crosshatched (dist : R) (t : trafo) : pattern := mkpattern 1 1 (Some dist) (Some dist) None (Some t) None.
Definition crosshatched_real (lw dist : R) : bbox := badd (enlarge_pt (mkbbox (Some 0) 0 0 dist) (0.5 * lw) None None None None) (enlarge_pt (mkbbox (Some 0) 0 dist 0) (0.5 * lw) None None None None).
Definition crosshatched_drawn (lw dist : R) (q : R * R) : Prop := (Rabs (fst q) <= lw / 2 /\ 0 <= snd q <= dist) \/ (Rabs (snd q) <= lw / 2 /\ 0 <= fst q <= dist).
