(** Model of pyx/canvas.py (l.72-329) and of decoratedpath in pyx/deco.py (l.37-375): what a canvas
    writes to PostScript, PDF and SVG.

    Paths are lists of points; styles are opaque numbers in four kinds: colours (color.py l.54-278),
    transparency (color.py l.591-619), line styles (style.py l.43-246: width, cap, join, dashes...,
    a kind and a value) and the fill rule (style.py l.249-267).  What an item writes is the list of
    its operators; numbers are not formatted, resources are not registered, bounding boxes are
    in CanvasBoxModel.v.  The y axis is not turned around for SVG.  Text is not written as paths
    (writer.textaspath is False). *)
From Coq Require Import ZArith Reals List Bool.
From Verif Require Import TrafoModel.
Import ListNotations.

Definition path := list (R * R).
Inductive style := Paint (c : Z) | Alpha (a : Z) | Line (k v : Z) | Rule (evenodd : bool).

(** ** the constructor, canvas.__init__ l.103-149 *)
(** attrs after mergeattrs: styles, a clip path (l.72-78), transformations *)
Inductive cattr := AStyle (s : style) | AClip (p : path) | ATrafo (t : trafo).
(** The attributes of a canvas without its items.  [c_trafo] is None while self.trafo is the object
    trafo.identity (l.122). *)
Record canvas := mkcanvas { c_modifies : bool; c_styles : list style; c_clip : option path; c_trafo : option trafo }.
(** trafo.identity *)
Definition one : trafo := mktrafo 1 0 0 1 0 0.
Definition trafo_of (o : option trafo) : trafo := match o with Some t => t | None => one end.
(** path.transformed *)
Definition moved (t : trafo) (p : path) : path := map (apply_pt t) p.
(** attr.getattrs(attrs, [style.style]), l.139 *)
Fixpoint styles_of (attrs : list cattr) : list style :=
  match attrs with [] => [] | AStyle s :: r => s :: styles_of r | _ :: r => styles_of r end.
(** one step of the loop l.143-149; None is the ValueError l.148 *)
Definition place (acc : option (option path * option trafo)) (a : cattr) : option (option path * option trafo) :=
  match acc with
  | None => None
  | Some (c, t) =>
    match a with
    | AStyle _ => Some (c, t)
    | ATrafo u => Some (c, Some (tmul (trafo_of t) u))
    | AClip p => match c with Some _ => None | None => Some (Some (moved (trafo_of t) p), t) end
    end
  end.
Definition new_canvas (attrs : list cattr) : option canvas :=
  match fold_left place (rev attrs) (Some (None, None)) with
  | None => None
  | Some (c, t) => Some (mkcanvas (match attrs with [] => false | _ => true end) (styles_of attrs) c t)
  end.

(** ** the items of a canvas *)
(** A text in a font (font/font.py l.436-761), a decorated path (deco.py l.45-65) with the path
    without the excluded ranges if there are any (strokepath, l.108-121), the global styles, the
    styles for stroking and for filling (None: not stroked, not filled) and the items of the canvas
    of ornaments, and a canvas. *)
Inductive item :=
| Text (k font : Z)
| Path (p : path) (sp : option path) (styles : list style) (strokestyles fillstyles : option (list style)) (ornaments : list item)
| Canvas (c : canvas) (items : list item).

Definition stroke_path (p : path) (sp : option path) : path := match sp with Some q => q | None => p end.
Definition is_nil {A} (l : list A) : bool := match l with [] => true | _ => false end.

(** ** PostScript *)
Inductive psop :=
| Gsave | Grestore | Setcolor (c : Z) | Setalpha (a : Z) | Setline (k v : Z)
| Newpath | Addpath (p : path) | Clip | Fill | Eofill | Stroke | Concat (t : trafo) | Selectfont (f : Z) | Show (k : Z).
(** pswriter.context: the fields fillrule and selectedfont *)
Record context := mkcontext { x_rule : bool; x_font : option Z }.
(** processPS of a style: color.py l.79-80, 128-129, 204-205, 247-248, 597-599; style.py l.56-57, 83-84, 109-110, ..., 260-261 *)
Definition ps_style (s : style) : list psop :=
  match s with Paint c => [Setcolor c] | Alpha a => [Setalpha a] | Line k v => [Setline k v] | Rule _ => [] end.
Definition style_context (x : context) (s : style) : context :=
  match s with Rule b => mkcontext b (x_font x) | _ => x end.
Definition ps_styles (l : list style) : list psop := flat_map ps_style l.
Definition styles_context (x : context) (l : list style) : context := fold_left style_context l x.
(** clip.processPS, canvas.py l.80-83 *)
Definition ps_clip (c : option path) : list psop := match c with Some p => [Newpath; Addpath p; Clip] | None => [] end.
Definition ps_trafo (t : option trafo) : list psop := match t with Some u => [Concat u] | None => [] end.
(** a group in gsave and grestore if there are styles *)
Definition ps_group (l : list style) (body : list psop) : list psop :=
  if is_nil l then body else Gsave :: ps_styles l ++ body ++ [Grestore].
Definition font_known (x : context) (f : Z) : bool := match x_font x with Some g => Z.eqb f g | None => false end.
(** the context after an item: only text changes it, as the others work on copies *)
Definition after (x : context) (it : item) : context :=
  match it with Text _ f => mkcontext (x_rule x) (Some f) | _ => x end.
(** the stroke and fill part of decoratedpath.processPS, deco.py l.142-200 *)
Definition ps_paint (x : context) (p : path) (sp : option path) (ss fs : option (list style)) : list psop :=
  let fill := if x_rule x then Eofill else Fill in
  match fs with
  | None => []
  | Some f =>
    Newpath :: Addpath p ::
    match ss, sp with
    | Some s, None => (* l.146-169 *)
      Gsave :: ps_styles f ++ fill :: Grestore ::
      (if is_nil s then [Stroke] else Gsave :: ps_styles s ++ [Stroke; Grestore])
    | _, _ => (* l.170-183 *)
      if is_nil f then [fill] else Gsave :: ps_styles f ++ [fill; Grestore]
    end
  end ++
  match ss, sp, fs with
  | None, _, _ | Some _, None, Some _ => []
  | Some s, _, _ => (* l.185-200 *)
    ps_group s [Newpath; Addpath (stroke_path p sp); Stroke]
  end.
(** processPS of text (font.py l.571-580), of a decorated path (deco.py l.123-207) and of a canvas
    (canvas.py l.194-214) *)
Fixpoint ps (x : context) (it : item) : list psop :=
  let items := fix items (x : context) (l : list item) : list psop :=
    match l with [] => [] | i :: r => ps x i ++ items (after x i) r end in
  match it with
  | Text k f => (if font_known x f then [] else [Selectfont f]) ++ [Show k]
  | Path p sp styles ss fs ornaments =>
    let x := styles_context x styles in
    ps_group styles (ps_paint x p sp ss fs ++ items x ornaments)
  | Canvas c l =>
    if is_nil l then []
    else if c_modifies c
         then Gsave :: ps_styles (c_styles c) ++ ps_clip (c_clip c) ++ ps_trafo (c_trafo c) ++
              items (styles_context x (c_styles c)) l ++ [Grestore]
         else items x l
  end.

(** ** PDF *)
Inductive pdfop :=
| Q_save | Q_restore | RG (c : Z) | Rg (c : Z) | CA (a : Z) | Ca (a : Z) | Lineop (k v : Z)
| Pathop (p : path) | W_n | F | Fstar | S_ | B | Bstar | Cm (t : trafo) | BT | ET | Tf (f : Z) | Tj (k : Z).
(** processPDF of a style with context.strokeattr and context.fillattr: color.py l.82-86, 131-135,
    207-208, 250-254, 601-613 (the extended graphics states are written as their settings);
    style.py l.59-60, 86-87, 112-113, ..., 263-264 *)
Definition pdf_style (strokeattr fillattr : bool) (s : style) : list pdfop :=
  match s with
  | Paint c => (if strokeattr then [RG c] else []) ++ (if fillattr then [Rg c] else [])
  | Alpha a => (if strokeattr then [CA a] else []) ++ (if fillattr then [Ca a] else [])
  | Line k v => [Lineop k v]
  | Rule _ => []
  end.
Definition pdf_styles (strokeattr fillattr : bool) (l : list style) : list pdfop := flat_map (pdf_style strokeattr fillattr) l.
(** clip.processPDF, canvas.py l.85-87 *)
Definition pdf_clip (c : option path) : list pdfop := match c with Some p => [Pathop p; W_n] | None => [] end.
Definition pdf_trafo (t : option trafo) : list pdfop := match t with Some u => [Cm u] | None => [] end.
(** the stroke and fill part of decoratedpath.processPDF, deco.py l.237-288 *)
Definition pdf_paint (x : context) (p : path) (sp : option path) (ss fs : option (list style)) : list pdfop :=
  match fs with
  | None => []
  | Some f =>
    Pathop p ::
    match ss, sp with
    | Some s, None => (* l.240-257 *)
      Q_save :: pdf_styles false true f ++ pdf_styles true false s ++ [if x_rule x then Bstar else B; Q_restore]
    | _, _ => (* l.258-271 *)
      let fill := if x_rule x then Fstar else F in
      if is_nil f then [fill] else Q_save :: pdf_styles false true f ++ [fill; Q_restore]
    end
  end ++
  match ss, sp, fs with
  | None, _, _ | Some _, None, Some _ => []
  | Some s, _, _ => (* l.273-288 *)
    let body := [Pathop (stroke_path p sp); S_] in
    if is_nil s then body else Q_save :: pdf_styles true false s ++ body ++ [Q_restore]
  end.
(** requiretextregion, baseclasses.py l.33-36 and font.py l.441-444 *)
Definition requiretextregion (it : item) : bool := match it with Text _ _ => true | _ => false end.
(** the operator before an item, canvas.py l.233-242, and the context it leaves *)
Definition region_op (textregion : bool) (it : item) : list pdfop :=
  if requiretextregion it then (if textregion then [] else [BT]) else (if textregion then [ET] else []).
Definition region_context (textregion : bool) (it : item) (x : context) : context :=
  if requiretextregion it then x else if textregion then mkcontext (x_rule x) None else x.
(** processPDF of text (font.py l.651-690), of a decorated path (deco.py l.209-295) and of a canvas
    (canvas.py l.216-254) *)
Fixpoint pdf (x : context) (it : item) : list pdfop :=
  let items := fix items (textregion : bool) (x : context) (l : list item) : list pdfop :=
    match l with
    | [] => if textregion then [ET] else []
    | i :: r => let x := region_context textregion i x in
                region_op textregion i ++ pdf x i ++ items (requiretextregion i) (after x i) r
    end in
  match it with
  | Text k f => (if font_known x f then [] else [Tf f]) ++ [Tj k]
  | Path p sp styles ss fs ornaments =>
    let x := styles_context x styles in
    let body := pdf_paint x p sp ss fs ++ items false x ornaments in
    if is_nil styles then body else Q_save :: pdf_styles true true styles ++ body ++ [Q_restore]
  | Canvas c l =>
    if is_nil l then []
    else if c_modifies c
         then Q_save :: pdf_styles true true (c_styles c) ++ pdf_clip (c_clip c) ++ pdf_trafo (c_trafo c) ++
              items false (styles_context x (c_styles c)) l ++ [Q_restore]
         else items false x l
  end.

(** ** SVG *)
(** the attributes of an element: line styles in the order they were set, fill-rule, clip-path,
    transform, stroke, fill (None: not present or none), opacity *)
Record attrs := mkattrs { s_lines : list (Z * Z); s_rule : option bool; s_clip : option path; s_trafo : option trafo;
                          s_stroke : option Z; s_fill : option Z; s_opacity : option Z }.
Definition no_attrs : attrs := mkattrs [] None None None None None None.
Inductive svgop := StartG (a : attrs) | EndG | PathEl (d : path) (a : attrs) | TextEl (k font : Z) (a : attrs).
(** svgwriter.context l.247-255: colours and opacities; 1 is opaque *)
Record svgcontext := mksvgcontext { x_strokecolor : Z; x_fillcolor : Z; x_strokeopacity : Z; x_fillopacity : Z }.
(** processSVGattrs of a style: color.py l.59-63, 615-619; style.py l.62-63, 89-90, 115-116, ..., 266-267 *)
Definition svg_style (strokeattr fillattr : bool) (ax : attrs * svgcontext) (s : style) : attrs * svgcontext :=
  let (a, x) := ax in
  match s with
  | Paint c => (a, mksvgcontext (if strokeattr then c else x_strokecolor x) (if fillattr then c else x_fillcolor x) (x_strokeopacity x) (x_fillopacity x))
  | Alpha v => (a, mksvgcontext (x_strokecolor x) (x_fillcolor x) (if strokeattr then v else x_strokeopacity x) (if fillattr then v else x_fillopacity x))
  | Line k v => (mkattrs (s_lines a ++ [(k, v)]) (s_rule a) (s_clip a) (s_trafo a) (s_stroke a) (s_fill a) (s_opacity a), x)
  | Rule b => (mkattrs (s_lines a) (Some b) (s_clip a) (s_trafo a) (s_stroke a) (s_fill a) (s_opacity a), x)
  end.
Definition svg_styles (strokeattr fillattr : bool) (l : list style) (ax : attrs * svgcontext) : attrs * svgcontext :=
  fold_left (svg_style strokeattr fillattr) l ax.
Definition set_clip (p : path) (a : attrs) : attrs := mkattrs (s_lines a) (s_rule a) (Some p) (s_trafo a) (s_stroke a) (s_fill a) (s_opacity a).
Definition set_trafo (t : trafo) (a : attrs) : attrs := mkattrs (s_lines a) (s_rule a) (s_clip a) (Some t) (s_stroke a) (s_fill a) (s_opacity a).
Definition set_stroke (o : option Z) (a : attrs) : attrs := mkattrs (s_lines a) (s_rule a) (s_clip a) (s_trafo a) o (s_fill a) (s_opacity a).
Definition set_fill (o : option Z) (a : attrs) : attrs := mkattrs (s_lines a) (s_rule a) (s_clip a) (s_trafo a) (s_stroke a) o (s_opacity a).
(** if opacity != 1: attrs["opacity"] = ... *)
Definition set_opacity (v : Z) (a : attrs) : attrs :=
  if Z.eqb v 1 then a else mkattrs (s_lines a) (s_rule a) (s_clip a) (s_trafo a) (s_stroke a) (s_fill a) (Some v).
Definition given {A} (o : option A) : bool := match o with Some _ => true | None => false end.
Definition or_nil {A} (o : option (list A)) : list A := match o with Some l => l | None => [] end.
(** the stroke and fill part of decoratedpath.processSVG, deco.py l.320-371: the elements and the
    context left behind (acontext) *)
Definition svg_paint (x : svgcontext) (p : path) (sp : option path) (ss fs : option (list style)) : list svgop * svgcontext :=
  match sp with
  | Some q => (* l.320-338 *)
    let (stroke, x1) := match ss with
      | Some s => let (a, x1) := svg_styles true false s (no_attrs, x) in
                  ([PathEl q (set_opacity (x_strokeopacity x1) (set_stroke (Some (x_strokecolor x1)) a))], x1)
      | None => ([], x)
      end in
    let (fill, x2) := match fs with
      | Some f => let (a, x2) := svg_styles false true f (no_attrs, x1) in
                  ([PathEl p (set_opacity (x_fillopacity x2) (set_fill (Some (x_fillcolor x2)) a))], x2)
      | None => ([], x1)
      end in
    (stroke ++ fill, x2)
  | None => (* l.339-371 *)
    let (a, x1) := svg_styles true false (or_nil ss) (no_attrs, x) in
    let (a, x2) := svg_styles false true (or_nil fs) (a, x1) in
    let a := set_stroke (if given ss then Some (x_strokecolor x2) else None) a in
    let a := set_fill (if given fs then Some (x_fillcolor x2) else None) a in
    if negb (Z.eqb (x_strokeopacity x2) (x_fillopacity x2)) && given ss && given fs
    then (* l.348-359 *)
      let a1 := set_fill None (set_stroke (Some (x_strokecolor x2)) (set_opacity (x_strokeopacity x2) a)) in
      let a2 := set_fill (Some (x_fillcolor x2)) (set_stroke None (set_opacity (x_fillopacity x2) a1)) in
      ([PathEl p a1; PathEl p a2], x2)
    else (* l.361-366 *)
      let a := if given ss then set_opacity (x_strokeopacity x2) a else a in
      let a := if given fs then set_opacity (x_fillopacity x2) a else a in
      ([PathEl p a], x2)
  end.
(** does the dictionary gattrs have an entry, l.317 *)
Definition has_attrs (a : attrs) : bool := negb (is_nil (s_lines a)) || given (s_rule a).
(** processSVG of text (font.py l.726-761; the attribute opacity is written if the opacity is not
    zero), of a decorated path (deco.py l.297-375) and of a canvas (canvas.py l.256-285) *)
Fixpoint svg (x : svgcontext) (it : item) : list svgop :=
  let items := fix items (x : svgcontext) (l : list item) : list svgop :=
    match l with [] => [] | i :: r => svg x i ++ items x r end in
  match it with
  | Text k f => [TextEl k f (mkattrs [] None None None None (Some (x_fillcolor x))
                                     (if Z.eqb (x_fillopacity x) 0 then None else Some (x_fillopacity x)))]
  | Path p sp styles ss fs ornaments =>
    let (g, x) := svg_styles true true styles (no_attrs, x) in
    let (els, x) := svg_paint x p sp ss fs in
    let body := els ++ match ornaments with [] => [] | _ => items x ornaments end in
    if has_attrs g then StartG g :: body ++ [EndG] else body
  | Canvas c l =>
    if is_nil l then []
    else if c_modifies c
         then let (a, x) := svg_styles true true (c_styles c) (no_attrs, x) in
              match c_clip c, c_trafo c with
              | Some p, Some t => StartG (set_clip p a) :: StartG (set_trafo t no_attrs) :: items x l ++ [EndG; EndG]
              | Some p, None => StartG (set_clip p a) :: items x l ++ [EndG]
              | None, Some t => StartG (set_trafo t a) :: items x l ++ [EndG]
              | None, None => StartG a :: items x l ++ [EndG]
              end
         else items x l
  end.
