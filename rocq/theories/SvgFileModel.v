(** Model of how pyx/svgfile.py reads an SVG file: numbers with units (l.97-123), the svg element (l.389-414), groups and shapes (l.415-480), and how the
    picture is placed (l.486-565).  Floats are real numbers.  The XML parser is not modelled; an attribute is a number and a unit, whose text is read in SvgTextModel.v.
    Exceptions are None. *)
From Coq Require Import Reals List.
From Verif Require Import UnitModel TrafoModel BboxModel CanvasModel.
Import ListNotations.
Open Scope R_scope.

(** the units of l.97-103 and % *)
Inductive sunit := NoUnit | Px | Pt | Pc | Mm | Cm | In | Percent.
(** a number of an attribute, l.86 *)
Definition number : Type := R * sunit.
(** self.units, l.97-103 *)
Definition unit_pt (res : R) (u : sunit) : R :=
  match u with NoUnit | Px => 72 / res | Pt => 1 | Pc => 12 | Mm => 72 / 25.4 | Cm => 72 / 2.54 | In => 72 | Percent => 0 end.
(** toFloat, l.105-123, with units; None is svgValueError l.116 *)
Definition to_float (res : R) (relative : option R) (n : number) : option R :=
  match snd n, relative with
  | Percent, Some r => Some (fst n * (0.01 * r))
  | Percent, None => None
  | u, _ => Some (fst n * unit_pt res u)
  end.
Definition bind {A B} (o : option A) (f : A -> option B) : option B := match o with Some a => f a | None => None end.
(** the attributes of an svg element; [sa_clip] is that there is no clip attribute or that it is auto (l.395) *)
Record svgattrs := mksvgattrs { sa_x : option number; sa_y : option number; sa_viewBox : option (number * number * number * number);
  sa_width : option number; sa_height : option number; sa_clip : bool }.
Definition default_number (d : number) (o : option number) : number := match o with Some n => n | None => d end.
(** path.rect(x, y, width, height), path.py l.1393-1399 and l.1339-1348, with numbers *)
Definition rect (st : ustate) (x y w h : R) : path :=
  let x := topt st (Num x) in let y := topt st (Num y) in let w := topt st (Num w) in let h := topt st (Num h) in
  [(x, y); (x + w, y); (x + w, y + h); (x, y + h)].
Definition nonzero (x : R) : bool := if Req_EM_T x 0 then false else true.
Definition scaling (st : ustate) (sx sy : R) : trafo := new_trafo st sx 0 0 sy (Num 0) (Num 0).
(** l.390-414: the attributes of the canvas and self.bbox.  [pre] is what pathAttrs adds (l.390: styles and an attribute transform). *)
Definition svg_element (st : ustate) (res : R) (pre : list cattr) (a : svgattrs) : option (list cattr * bbox) :=
  bind (to_float res None (default_number (0, NoUnit) (sa_x a))) (fun ox =>
  bind (to_float res None (default_number (0, NoUnit) (sa_y a))) (fun oy =>
  match sa_viewBox a with
  | Some (bx, by_, bw, bh) =>
      bind (to_float res None bx) (fun ix => bind (to_float res None by_) (fun iy => bind (to_float res None bw) (fun iw => bind (to_float res None bh) (fun ih =>
      bind (to_float res (Some iw) (default_number (100, Percent) (sa_width a))) (fun w =>
      bind (to_float res (Some ih) (default_number (100, Percent) (sa_height a))) (fun h =>
      if (nonzero iw && nonzero ih)%bool then
        Some (pre ++ (if sa_clip a then [AClip (rect st ix iy iw ih)] else []) ++
                [ATrafo (translate_pt (- ix) (- iy)); ATrafo (scaling st (w / iw) (h / ih)); ATrafo (translate_pt ox oy); ATrafo (translate_pt 0 (- h)); ATrafo (mirror st 0)],
              mkbbox (Some ox) (- oy) (ox + w) (- oy + h))
      else None))))))
  | None =>
      match sa_width a, sa_height a with
      | Some w, Some h =>
          bind (to_float res None w) (fun w => bind (to_float res None h) (fun h =>
          Some (pre ++ [ATrafo (translate_pt ox oy); ATrafo (translate_pt 0 (- h)); ATrafo (mirror st 0)], mkbbox (Some ox) (- oy) (ox + w) (- oy + h))))
      | _, _ => None
      end
  end)).

(** svgBboxHandler, l.486-503: self.bbox and self.trafo of a file that is not parsed *)
Definition svg_unparsed (st : ustate) (res : R) (a : svgattrs) : option (trafo * bbox) :=
  match sa_width a, sa_height a with
  | Some nw, Some nh =>
      bind (to_float res None (default_number (0, NoUnit) (sa_x a))) (fun ox =>
      bind (to_float res None (default_number (0, NoUnit) (sa_y a))) (fun oy =>
      match to_float res None nw, to_float res None nh with
      | Some w, Some h => Some (tmul (translate_pt 0 h) (scaling st (72 / res) (72 / res)), mkbbox (Some ox) (- oy) (ox + w) (- oy + h))
      | _, _ =>
          match sa_viewBox a with
          | Some (bx, by_, bw, bh) =>
              bind (to_float res None bx) (fun _ => bind (to_float res None by_) (fun _ => bind (to_float res None bw) (fun iw => bind (to_float res None bh) (fun ih =>
              bind (to_float res (Some iw) nw) (fun w => bind (to_float res (Some ih) nh) (fun h =>
              Some (translate_pt (- (0.5) * w) h, mkbbox (Some ox) (- oy) (ox + w) (- oy + h))))))))
          | None => None
          end
      end))
  | _, _ => None
  end.

(** svgfile_pt.__init__, l.534-562: self.trafo from the bounding box of the file *)
Definition place_svg (x y : R) (width height ratio : option R) (b : bbox) : option trafo :=
  match llx b with
  | None => None
  | Some l =>
      let sw := urx b - l in let sh := ury b - lly b in
      bind (match width, height, ratio with
            | None, None, None => Some (translate_pt x y)
            | None, None, Some _ => None
            | Some _, Some _, Some _ => None
            | _, _, _ =>
                bind (match width, height, ratio with
                      | None, Some h, None => if nonzero sh then Some (h * sw / sh, h) else None
                      | None, Some h, Some r => Some (r * h, h)
                      | Some w, None, None => if nonzero sw then Some (w, w * sh / sw) else None
                      | Some w, None, Some r => if nonzero r then Some (w, 1 / r * w) else None
                      | Some w, Some h, _ => Some (w, h)
                      | None, None, _ => None
                      end) (fun wh =>
                if (nonzero sw && nonzero sh)%bool then Some (tmul (translate_pt x y) (mktrafo (fst wh / sw) 0 0 (snd wh / sh) 0 0)) else None)
            end) (fun t => Some (tmul t (translate_pt (- l) (- lly b))))
  end.

(** ** groups and shapes *)
Section Elements.
(** colors and shapes *)
Variable C S : Type.
(** the value of an attribute fill or stroke, toColor l.283-289 and the rest of it; [Inherit] also is a missing attribute *)
Inductive paint := Inherit | NoPaint | CurrentColor | Color (c : C).
(** toColor *)
Definition to_color (p : paint) (inherited : option C) : option C :=
  match p with CurrentColor => None | Inherit => inherited | NoPaint => None | Color c => Some c end.
(** an element: what pathAttrs gives, and the attributes fill and stroke *)
Record eattrs := mkeattrs { e_attrs : list cattr; e_fill : paint; e_stroke : paint }.
Inductive event := StartSvg (a : eattrs) | StartG (a : eattrs) | EndG | EndSvg | Shape (a : eattrs) (s : S).
(** A canvas is given by the number of the canvas of the svg element it is in and by the attributes of the canvases from there to it. *)
Definition place_of : Type := nat * list (list cattr).
(** something drawn: where, with which attributes, with which colors, and what *)
Record drawn := mkdrawn { d_place : place_of; d_attrs : list cattr; d_fill : option C; d_stroke : option C; d_shape : S }.
Record state := mkstate { s_canvas : place_of; s_fillcolor : option C; s_strokecolor : option C; s_stack : list (place_of * option C * option C);
  s_next : nat; s_drawn : list drawn }.
(** l.133-137; [black] is color.grey.black *)
Definition start (black : C) : state := mkstate (0%nat, []) (Some black) None [] 1 [].
(** l.415-480; None is an error: an end tag without start (which the parser excludes) *)
Definition handle (st : state) (e : event) : option state :=
  match e with
  | StartSvg a => Some (mkstate (s_next st, [e_attrs a]) (s_fillcolor st) (s_strokecolor st) (s_stack st) (1 + s_next st) (s_drawn st))
  | EndSvg => Some st
  | StartG a => Some (mkstate (fst (s_canvas st), snd (s_canvas st) ++ [e_attrs a]) (to_color (e_fill a) (s_fillcolor st)) (to_color (e_stroke a) (s_strokecolor st))
                        ((s_canvas st, s_strokecolor st, s_fillcolor st) :: s_stack st) (s_next st) (s_drawn st))
  | EndG => match s_stack st with
            | (c, s, f) :: r => Some (mkstate c f s r (s_next st) (s_drawn st))
            | [] => None
            end
  | Shape a s =>
      let f := to_color (e_fill a) (s_fillcolor st) in
      let k := to_color (e_stroke a) (s_strokecolor st) in
      match f, k with
      | None, None => Some st
      | _, _ => Some (mkstate (s_canvas st) (s_fillcolor st) (s_strokecolor st) (s_stack st) (s_next st) (s_drawn st ++ [mkdrawn (s_canvas st) (e_attrs a) f k s]))
      end
  end.
Fixpoint handle_all (st : state) (l : list event) : option state :=
  match l with [] => Some st | e :: r => bind (handle st e) (fun st => handle_all st r) end.
(** what is seen: l.563-565: self.canvas at the end with all that is in it *)
Definition seen (st : state) : list drawn := filter (fun d => Nat.eqb (fst (d_place d)) (fst (s_canvas st))) (s_drawn st).
End Elements.
Arguments Inherit {C}. Arguments NoPaint {C}. Arguments CurrentColor {C}. Arguments Color {C}.
Arguments mkeattrs {C}. Arguments mkdrawn {C S}. Arguments StartSvg {C S}. Arguments StartG {C S}. Arguments EndG {C S}. Arguments EndSvg {C S}. Arguments Shape {C S}.
(** style.miterlimit(floatAttr(stroke-miterlimit)), l.378-379 and l.350-357, of an attribute without unit *)
Definition miterlimit (res : R) (n : R) : option R := to_float res None (n, NoUnit).
