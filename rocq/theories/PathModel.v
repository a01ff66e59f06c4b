(** Model of the path items and of the class path of pyx/path.py, l.177-1314, with real
    numbers for floats.  The versions of the items in user units, l.864-962, convert their
    arguments by unit.topt (modelled in UnitModel.v) and are left out.  The numbers written
    with %g and %f are kept exactly. *)
From Coq Require Import Reals Bool List ZArith.
From Verif Require Import TrafoModel BboxModel CurveModel ArcModel.
Import ListNotations.
Open Scope R_scope.

Local Notation pt := (R * R)%type.

(** the path items, l.293-1066 *)
Inductive pathitem :=
| Closepath                                   (* l.293 *)
| Moveto (p : pt)                             (* l.325 *)
| Lineto (p : pt)                             (* l.377 *)
| Curveto (p1 p2 p3 : pt)                     (* l.412 *)
| Rmoveto (d : pt)                            (* l.461 *)
| Rlineto (d : pt)                            (* l.510 *)
| Rcurveto (d1 d2 d3 : pt)                    (* l.546 *)
| Arc (x y r angle1 angle2 : R)               (* l.607 *)
| Arcn (x y r angle1 angle2 : R)              (* l.689 *)
| Arct (p1 p2 : pt) (r : R)                   (* l.786 *)
| Multilineto (l : list pt)                   (* l.968 *)
| Multicurveto (l : list (pt * pt * pt)).     (* l.1014 *)

(** context, l.177-193: current point and first point of the subpath *)
Record context := mkcontext { current : pt; subfirst : pt }.

Definition plus_pt (p d : pt) : pt := (fst p + fst d, snd p + snd d).

(** createcontext, l.202-212, 339, 624, 712; None is the PathException of l.212 *)
Definition createcontext (i : pathitem) : option context :=
  match i with
  | Moveto p => Some (mkcontext p p)
  | Arc x y r a1 a2 | Arcn x y r a1 a2 => Some (mkcontext (arcpoint x y r a2) (arcpoint x y r a1))
  | _ => None
  end.

(** arct_pt._pathitems, l.803-857.  None is the ZeroDivisionError of l.816 and 821, which
    is not caught.  The ZeroDivisionErrors caught by l.854 are those of l.843 and, with real
    numbers, of the tangent of a right angle in l.833-836; with floats that tangent is a
    number of order 1e16 instead. *)
Definition arct_pathitems (p p1 p2 : pt) (r : R) : option (list pathitem) :=
  let '(x, y) := p in let '(x1, y1) := p1 in let '(x2, y2) := p2 in
  let l1 := hypot (x1 - x) (y1 - y) in
  let l2 := hypot (x2 - x1) (y2 - y1) in
  if (eqb l1 0 || eqb l2 0)%bool then None
  else
    let dx1 := (x1 - x) / l1 in let dy1 := (y1 - y) / l1 in
    let dx2 := (x2 - x1) / l2 in let dy2 := (y2 - y1) / l2 in
    let alpha := if ltb 0 (dx1 * dy2 - dy1 * dx2) then acos (dx1 * dx2 + dy1 * dy2) else - acos (dx1 * dx2 + dy1 * dy2) in
    let xt1 := x1 - dx1 * r * tan (Rabs alpha / 2) in
    let yt1 := y1 - dy1 * r * tan (Rabs alpha / 2) in
    let xt2 := x1 + dx2 * r * tan (Rabs alpha / 2) in
    let yt2 := y1 + dy2 * r * tan (Rabs alpha / 2) in
    let dmx_pt := 1 / 2 * (xt1 + xt2) - x1 in
    let dmy_pt := 1 / 2 * (yt1 + yt2) - y1 in
    let lm := hypot dmx_pt dmy_pt in
    if (eqb lm 0 || eqb (cos (alpha / 2)) 0)%bool then Some [Lineto p1]
    else
      let dmx := dmx_pt / lm in let dmy := dmy_pt / lm in
      let mx := x1 + dmx * r / cos (alpha / 2) in
      let my := y1 + dmy * r / cos (alpha / 2) in
      let phi := degrees (atan2 (- dmy) (- dmx)) in
      let deltaphi := degrees alpha / 2 in
      let line := Lineto (arcpoint mx my r (phi - deltaphi)) in
      if ltb 0 alpha then Some [line; Arc mx my r (phi - deltaphi) (phi + deltaphi)]
      else Some [line; Arcn mx my r (phi - deltaphi) (phi + deltaphi)].

(** * bounding boxes *)

(** createbbox, l.214-223, 342, 629, 717 *)
Definition box4 (d : R * R * R * R) : bbox := let '(x1, y1, x2, y2) := d in mkbbox (Some x1) y1 x2 y2.
Definition createbbox (i : pathitem) : option bbox :=
  match i with
  | Moveto p => Some (mkbbox (Some (fst p)) (snd p) (fst p) (snd p))
  | Arc x y r a1 a2 => Some (box4 (arcbboxdata x y r a1 a2))
  | Arcn x y r a1 a2 => Some (box4 (arcbboxdata x y r a2 a1))
  | _ => None
  end.

(** the two calls of includepoint_pt for a curve, l.432-435, 570-579, 1031-1034 *)
Definition include_curve (b : bbox) (p0 p1 p2 p3 : pt) : bbox :=
  let '(xmin, xmax) := bezierpolyrange (fst p0) (fst p1) (fst p2) (fst p3) in
  let '(ymin, ymax) := bezierpolyrange (snd p0) (snd p1) (snd p2) (snd p3) in
  includepoint_pt (includepoint_pt b (xmin, ymin)) (xmax, ymax).
(** and for an arc, l.642-645, 730-733 *)
Definition include_arc (b : bbox) (d : R * R * R * R) : bbox :=
  let '(x1, y1, x2, y2) := d in includepoint_pt (includepoint_pt b (x1, y1)) (x2, y2).

(** updatebbox of all items but arct: closepath l.302, moveto l.356, lineto l.391, curveto
    l.431, rmoveto l.474, rlineto l.523, rcurveto l.569, arc l.641, arcn l.729, multilineto
    l.983, multicurveto l.1029 *)
Definition updatebbox_simple (bc : bbox * context) (i : pathitem) : bbox * context :=
  let '(b, c) := bc in
  let cur := current c in
  match i with
  | Closepath => (b, mkcontext (subfirst c) (subfirst c))
  | Moveto p => (includepoint_pt b p, mkcontext p p)
  | Lineto p => (includepoint_pt b p, mkcontext p (subfirst c))
  | Curveto p1 p2 p3 => (include_curve b cur p1 p2 p3, mkcontext p3 (subfirst c))
  | Rmoveto d => (includepoint_pt b (plus_pt cur d), mkcontext (plus_pt cur d) (plus_pt cur d))
  | Rlineto d => (includepoint_pt b (plus_pt cur d), mkcontext (plus_pt cur d) (subfirst c))
  | Rcurveto d1 d2 d3 => (include_curve b cur (plus_pt cur d1) (plus_pt cur d2) (plus_pt cur d3), mkcontext (plus_pt cur d3) (subfirst c))
  | Arc x y r a1 a2 => (include_arc b (arcbboxdata x y r a1 a2), mkcontext (arcpoint x y r a2) (subfirst c))
  | Arcn x y r a1 a2 => (include_arc b (arcbboxdata x y r a2 a1), mkcontext (arcpoint x y r a2) (subfirst c))
  | Arct _ _ _ => bc
  | Multilineto l => (fold_left includepoint_pt l b, match rev l with [] => c | p :: _ => mkcontext p (subfirst c) end)
  | Multicurveto l =>
      fold_left (fun '(b, c) '(p1, p2, p3) => (include_curve b (current c) p1 p2 p3, mkcontext p3 (subfirst c))) l (b, c)
  end.
(** updatebbox including arct, l.859-861 *)
Definition updatebbox (bc : bbox * context) (i : pathitem) : option (bbox * context) :=
  match i with
  | Arct p1 p2 r =>
      match arct_pathitems (current (snd bc)) p1 p2 r with
      | Some l => Some (fold_left updatebbox_simple l bc)
      | None => None
      end
  | _ => Some (updatebbox_simple bc i)
  end.
Fixpoint updatebboxes (bc : bbox * context) (l : list pathitem) : option (bbox * context) :=
  match l with
  | [] => Some bc
  | i :: l' => match updatebbox bc i with Some bc' => updatebboxes bc' l' | None => None end
  end.
(** path.bbox, l.1161-1170 *)
Definition pathitems_bbox (l : list pathitem) : option bbox :=
  match l with
  | [] => Some empty
  | i :: l' =>
      match createbbox i, createcontext i with
      | Some b, Some c => match updatebboxes (b, c) l' with Some (b', _) => Some b' | None => None end
      | _, _ => None
      end
  end.

(** * output *)

(** The operators written: moveto, m or M; rmoveto or m; lineto, l or L; rlineto or l; curveto, c
    or C; rcurveto or c; closepath, h or Z; arc and arcn of PostScript, arct of PostScript, A of
    SVG with equal radii. *)
Inductive op :=
| Omove (p : pt) | Ormove (d : pt) | Oline (p : pt) | Orline (d : pt)
| Ocurve (p1 p2 p3 : pt) | Orcurve (d1 d2 d3 : pt) | Oclose
| Oarc (x y r a1 a2 : R) | Oarcn (x y r a1 a2 : R) | Oarct (p1 p2 : pt) (r : R)
| OA (r : R) (large sweep : bool) (p : pt).

(** outputPS, l.311, 368, 402, 448, 494, 536, 594, 660, 750, 867, 995, 1044 *)
Definition item_outputPS (i : pathitem) : list op :=
  match i with
  | Closepath => [Oclose]
  | Moveto p => [Omove p]
  | Lineto p => [Oline p]
  | Curveto p1 p2 p3 => [Ocurve p1 p2 p3]
  | Rmoveto d => [Ormove d]
  | Rlineto d => [Orline d]
  | Rcurveto d1 d2 d3 => [Orcurve d1 d2 d3]
  | Arc x y r a1 a2 => [Oarc x y r a1 a2]
  | Arcn x y r a1 a2 => [Oarcn x y r a1 a2]
  | Arct p1 p2 r => [Oarct p1 p2 r]
  | Multilineto l => map Oline l
  | Multicurveto l => map (fun '(p1, p2, p3) => Ocurve p1 p2 p3) l
  end.
(** path.outputPS, l.1297-1300 *)
Definition outputPS (l : list pathitem) : list op := flat_map item_outputPS l.

(** the change of the sign of y, as in l.374 *)
Definition flip (inverse_y : bool) (p : pt) : pt := if inverse_y then (fst p, - snd p) else p.

(** the angles of l.674-680 and 764-769 *)
Definition svg_turn (angle1 angle2 : R) : R :=
  if ltb angle2 angle1 then angle2 + (IZR (floor ((angle1 - angle2) / 360)) + 1) * 360
  else if ltb (angle1 + 360) angle2 then angle2 - (IZR (floor ((angle2 - angle1) / 360)) - 1) * 360
  else angle2.
(** the loop of l.683-690 and 773-780 *)
Definition svg_pieces (inverse_y : bool) (x y r angle1 angle2 : R) (subdivisions : Z) (large sweep : bool) : list op :=
  map (fun i => OA r large sweep (flip inverse_y (arcpoint x y r (angle1 + (INR i + 1) * (angle2 - angle1) / IZR subdivisions))))
      (seq 0 (Z.to_nat subdivisions)).
(** the last point of that loop, as stored in the context by l.692-693 and 782-783; the y
    coordinate has the changed sign.  The loop runs at least once. *)
Definition svg_lastpoint (inverse_y : bool) (x y r angle1 angle2 : R) (subdivisions : Z) : pt :=
  flip inverse_y (arcpoint x y r (angle1 + IZR subdivisions * (angle2 - angle1) / IZR subdivisions)).

(** returnSVGdata of all items but arct: closepath l.314, moveto l.371, lineto l.405, curveto l.453,
    rmoveto l.497, rlineto l.539, rcurveto l.599, arc l.667, arcn l.757, multilineto l.999,
    multicurveto l.1048.  closepath does not change the context.  int() in l.681 and 771
    truncates, here a number which is not negative. *)
Definition item_svg_simple (inverse_y first : bool) (c : context) (i : pathitem) : list op * context :=
  let fl := flip inverse_y in
  let cur := current c in
  match i with
  | Closepath => ([Oclose], c)
  | Moveto p => ([Omove (fl p)], mkcontext p p)
  | Lineto p => ([Oline (fl p)], mkcontext p (subfirst c))
  | Curveto p1 p2 p3 => ([Ocurve (fl p1) (fl p2) (fl p3)], mkcontext p3 (subfirst c))
  | Rmoveto d => ([Ormove (fl d)], mkcontext (plus_pt cur d) (plus_pt cur d))
  | Rlineto d => ([Orline (fl d)], mkcontext (plus_pt cur d) (subfirst c))
  | Rcurveto d1 d2 d3 => ([Orcurve (fl d1) (fl d2) (fl d3)], mkcontext (plus_pt cur d3) (subfirst c))
  | Arc x y r a1 a2 =>
      let start := fl (arcpoint x y r a1) in
      let a2' := svg_turn a1 a2 in
      let n := (floor ((a2' - a1) / 350) + 1)%Z in
      let large := ltb 180 ((a2' - a1) / IZR n) in
      ((if first then Omove start else Oline start) :: svg_pieces inverse_y x y r a1 a2' n large false,
       mkcontext (svg_lastpoint inverse_y x y r a1 a2' n) (subfirst c))
  | Arcn x y r a1 a2 =>
      let start := fl (arcpoint x y r a1) in
      let a1' := svg_turn a2 a1 in
      let n := (floor ((a1' - a2) / 350) + 1)%Z in
      let large := ltb 180 ((a1' - a2) / IZR n) in
      ((if first then Omove start else Oline start) :: svg_pieces inverse_y x y r a1' a2 n large true,
       mkcontext (svg_lastpoint inverse_y x y r a1' a2 n) (subfirst c))
  | Arct _ _ _ => ([], c)
  | Multilineto l =>
      (map (fun p => Oline (fl p)) l, match rev l with [] => c | p :: _ => mkcontext p (subfirst c) end)
  | Multicurveto l =>
      (map (fun '(p1, p2, p3) => Ocurve (fl p1) (fl p2) (fl p3)) l,
       match rev l with [] => c | (_, _, p3) :: _ => mkcontext p3 (subfirst c) end)
  end.
Fixpoint svg_simple (inverse_y first : bool) (c : context) (l : list pathitem) : list op * context :=
  match l with
  | [] => ([], c)
  | i :: l' =>
      let '(o, c') := item_svg_simple inverse_y first c i in
      let '(os, c'') := svg_simple inverse_y first c' l' in (o ++ os, c'')
  end.
(** with arct, l.872-874 *)
Definition item_svg (inverse_y first : bool) (c : context) (i : pathitem) : option (list op * context) :=
  match i with
  | Arct p1 p2 r => option_map (svg_simple inverse_y first c) (arct_pathitems (current c) p1 p2 r)
  | _ => Some (item_svg_simple inverse_y first c i)
  end.
Fixpoint svg_items (inverse_y first : bool) (c : context) (l : list pathitem) : option (list op) :=
  match l with
  | [] => Some []
  | i :: l' =>
      match item_svg inverse_y first c i with
      | Some (o, c') => option_map (app o) (svg_items inverse_y false c' l')
      | None => None
      end
  end.
(** path.returnSVGdata, l.1309-1314: the context is made from the first item, which is then
    written with it.  None is the PathException of createcontext or the ZeroDivisionError of
    arct. *)
Definition returnSVGdata (inverse_y : bool) (l : list pathitem) : option (list op) :=
  match l with
  | [] => Some []
  | i :: _ => match createcontext i with Some c => svg_items inverse_y true c l | None => None end
  end.

(** ** PDF *)

(** A normpath without epsilon, as made for PDF by l.1307: pdfmoveto_pt (l.318-321) is a normline_pt of
    no length which writes nothing. *)
Inductive pdfitem := PdfMoveto (p : pt) | PdfItem (i : item).
Record pdfsub := mkpdfsub { pdfitems : list pdfitem; pdfclosed : bool }.

Definition pdf_begin (i : pdfitem) : pt := match i with PdfMoveto p => p | PdfItem i => atbegin_pt i end.
Definition pdf_end (i : pdfitem) : pt := match i with PdfMoveto p => p | PdfItem i => atend_pt i end.

(** normsubpath.append with epsilon None, normpath.py l.871-877: no check at all *)
Definition pdf_append (s : pdfsub) (i : item) : pdfsub := mkpdfsub (pdfitems s ++ [PdfItem i]) (pdfclosed s).
Definition pdf_extend (s : pdfsub) (l : list item) : pdfsub := fold_left pdf_append l s.

(** normsubpath.close, normpath.py l.1041-1058; None is a NormpathException *)
Definition pdf_close (s : pdfsub) : option pdfsub :=
  if pdfclosed s then None
  else
    match pdfitems s with
    | [] => None
    | first :: _ =>
        let final := last (pdfitems s) first in
        Some (mkpdfsub (pdfitems (pdf_append s (Line (pdf_end final) (pdf_begin first)))) true)
    end.

(** the curves of _arctobezierpath; [None] in the list of [arctobezierpath] does not occur
    as the curves made there do not vanish *)
Definition arc_items (x y r a1 a2 : R) : list item :=
  flat_map (fun o => match o with Some i => [i] | None => [] end) (arctobezierpath x y r a1 a2 45).
Definition arcn_items (x y r a1 a2 : R) : list item := map item_reversed (rev (arc_items x y r a2 a1)).

(** a normpath in the making: its subpaths but the last one, and the last one *)
Record pdfpath := mkpdfpath { before : list pdfsub; lastsub : pdfsub }.
Definition pdf_subs (np : pdfpath) : list pdfsub := before np ++ [lastsub np].
Definition on_last (f : pdfsub -> pdfsub) (np : pdfpath) : pdfpath := mkpdfpath (before np) (f (lastsub np)).
Definition new_sub (np : pdfpath) (s : pdfsub) : pdfpath := mkpdfpath (pdf_subs np) s.

(** createnormpath(None), l.345-354, 633-638, 721-726 *)
Definition pdf_create (i : pathitem) : option pdfpath :=
  match i with
  | Moveto p => Some (mkpdfpath [] (mkpdfsub [PdfMoveto p] false))
  | Arc x y r a1 a2 => Some (mkpdfpath [] (mkpdfsub (map PdfItem (arc_items x y r a1 a2)) false))
  | Arcn x y r a1 a2 => Some (mkpdfpath [] (mkpdfsub (map PdfItem (arcn_items x y r a1 a2)) false))
  | _ => None
  end.

(** updatenormpath of all items but arct, with an epsilon of None: closepath l.306, moveto l.360,
    lineto l.396, curveto l.439, rmoveto l.481, rlineto l.528, rcurveto l.585, arc l.648, arcn l.736,
    multilineto l.989, multicurveto l.1037 *)
Definition pdf_arc (np : pdfpath) (cur start : pt) (l : list item) : pdfpath :=
  let np' := if pdfclosed (lastsub np) then new_sub np (mkpdfsub [PdfItem (Line cur start)] false)
             else on_last (fun s => pdf_append s (Line cur start)) np in
  on_last (fun s => pdf_extend s l) np'.
Definition pdf_update_simple (nc : pdfpath * context) (i : pathitem) : option (pdfpath * context) :=
  let '(np, c) := nc in
  let cur := current c in
  match i with
  | Closepath =>
      option_map (fun s => (mkpdfpath (before np) s, mkcontext (subfirst c) (subfirst c))) (pdf_close (lastsub np))
  | Moveto p => Some (new_sub np (mkpdfsub [] false), mkcontext p p)
  | Lineto p => Some (on_last (fun s => pdf_append s (Line cur p)) np, mkcontext p (subfirst c))
  | Curveto p1 p2 p3 => Some (on_last (fun s => pdf_append s (Curve cur p1 p2 p3)) np, mkcontext p3 (subfirst c))
  | Rmoveto d => Some (new_sub np (mkpdfsub [] false), mkcontext (plus_pt cur d) (plus_pt cur d))
  | Rlineto d => Some (on_last (fun s => pdf_append s (Line cur (plus_pt cur d))) np, mkcontext (plus_pt cur d) (subfirst c))
  | Rcurveto d1 d2 d3 =>
      Some (on_last (fun s => pdf_append s (Curve cur (plus_pt cur d1) (plus_pt cur d2) (plus_pt cur d3))) np,
            mkcontext (plus_pt cur d3) (subfirst c))
  | Arc x y r a1 a2 => Some (pdf_arc np cur (arcpoint x y r a1) (arc_items x y r a1 a2), mkcontext (arcpoint x y r a2) (subfirst c))
  | Arcn x y r a1 a2 => Some (pdf_arc np cur (arcpoint x y r a1) (arcn_items x y r a1 a2), mkcontext (arcpoint x y r a2) (subfirst c))
  | Arct _ _ _ => Some nc
  | Multilineto l =>
      let '(np', p) := fold_left (fun '(np, p0) p => (on_last (fun s => pdf_append s (Line p0 p)) np, p)) l (np, cur) in
      Some (np', mkcontext p (subfirst c))
  | Multicurveto l =>
      let '(np', p) := fold_left (fun '(np, p0) '(p1, p2, p3) => (on_last (fun s => pdf_append s (Curve p0 p1 p2 p3)) np, p3)) l (np, cur) in
      Some (np', mkcontext p (subfirst c))
  end.
Fixpoint pdf_simple (nc : pdfpath * context) (l : list pathitem) : option (pdfpath * context) :=
  match l with
  | [] => Some nc
  | i :: l' => match pdf_update_simple nc i with Some nc' => pdf_simple nc' l' | None => None end
  end.
(** with arct, l.863-865 *)
Definition pdf_update (nc : pdfpath * context) (i : pathitem) : option (pdfpath * context) :=
  match i with
  | Arct p1 p2 r => match arct_pathitems (current (snd nc)) p1 p2 r with Some l => pdf_simple nc l | None => None end
  | _ => pdf_update_simple nc i
  end.
Fixpoint pdf_updates (nc : pdfpath * context) (l : list pathitem) : option (pdfpath * context) :=
  match l with
  | [] => Some nc
  | i :: l' => match pdf_update nc i with Some nc' => pdf_updates nc' l' | None => None end
  end.
(** path.normpath(None), l.1215-1233 *)
Definition pdf_normpath (l : list pathitem) : option (list pdfsub) :=
  match l with
  | [] => Some []
  | i :: l' =>
      match pdf_create i, createcontext i with
      | Some np, Some c => option_map (fun '(np', _) => pdf_subs np') (pdf_updates (np, c) l')
      | _, _ => None
      end
  end.

(** normsubpath.outputPDF, normpath.py l.1413-1427, with outputPDF of the items, path.py l.320,
    normpath.py l.356 and 678.  The assertion of l.1419 fails for a closed subpath of a
    single line, which close does not make. *)
Definition is_line (i : pdfitem) : bool := match i with PdfMoveto _ | PdfItem (Line _ _) => true | _ => false end.
Definition item_outputPDF (i : pdfitem) : list op :=
  match i with
  | PdfMoveto _ => []
  | PdfItem (Line _ p) => [Oline p]
  | PdfItem (Curve _ p1 p2 p3) => [Ocurve p1 p2 p3]
  end.
Definition sub_outputPDF (s : pdfsub) : list op :=
  match pdfitems s with
  | [] => []
  | first :: _ =>
      let written := if (pdfclosed s && is_line (last (pdfitems s) first))%bool then removelast (pdfitems s) else pdfitems s in
      Omove (pdf_begin first) :: flat_map item_outputPDF written ++ (if pdfclosed s then [Oclose] else [])
  end.
(** path.outputPDF, l.1302-1307, and normpath.outputPDF, normpath.py l.1993-1995 *)
Definition outputPDF (l : list pathitem) : option (list op) := option_map (flat_map sub_outputPDF) (pdf_normpath l).
