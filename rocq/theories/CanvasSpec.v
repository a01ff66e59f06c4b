(** What a canvas ought to draw, and what PostScript, PDF and SVG interpreters draw, independent of
    what PyX writes (only the types of paths, styles, items and operators are used). *)
From Coq Require Import ZArith Reals List Bool.
From Verif Require Import TrafoModel CanvasModel.
Import ListNotations.

(** the place and look in force: current transformation, clip paths each with the transformation
    in force for it, colour, opacity, line styles in the order set, fill rule *)
Record look := mklook { ctm : trafo; clips : list (trafo * path); col : Z; alpha : Z; lines : list (Z * Z); rule : bool }.
(** the marks made on the page *)
Inductive mark :=
| Stroked (p : path) (t : trafo) (c : list (trafo * path)) (color opacity : Z) (l : list (Z * Z))
| Filled (p : path) (t : trafo) (c : list (trafo * path)) (color opacity : Z) (evenodd : bool)
| Written (k : Z) (font : option Z) (t : trafo) (c : list (trafo * path)) (color opacity : Z).

(** ** what ought to be drawn *)
Definition set_style (g : look) (s : style) : look :=
  match s with
  | Paint c => mklook (ctm g) (clips g) c (alpha g) (lines g) (rule g)
  | Alpha a => mklook (ctm g) (clips g) (col g) a (lines g) (rule g)
  | Line k v => mklook (ctm g) (clips g) (col g) (alpha g) (lines g ++ [(k, v)]) (rule g)
  | Rule b => mklook (ctm g) (clips g) (col g) (alpha g) (lines g) b
  end.
Definition set_styles (g : look) (l : list style) : look := fold_left set_style l g.
Definition inner (g : look) (c : canvas) : look :=
  let g := set_styles g (c_styles c) in
  let g := match c_clip c with Some p => mklook (ctm g) (clips g ++ [(ctm g, p)]) (col g) (alpha g) (lines g) (rule g) | None => g end in
  match c_trafo c with Some t => mklook (tmul (ctm g) t) (clips g) (col g) (alpha g) (lines g) (rule g) | None => g end.
Definition filled (g : look) (p : path) : mark := Filled p (ctm g) (clips g) (col g) (alpha g) (rule g).
Definition stroked (g : look) (p : path) : mark := Stroked p (ctm g) (clips g) (col g) (alpha g) (lines g).
(** a path is first filled, with the fill styles on top of the global ones, then stroked with the
    stroke styles on top of the global ones, then its ornaments follow with the global ones *)
Fixpoint draw (g : look) (it : item) : list mark :=
  match it with
  | Text k f => [Written k (Some f) (ctm g) (clips g) (col g) (alpha g)]
  | Path p sp styles ss fs ornaments =>
    let g := set_styles g styles in
    match fs with Some f => [filled (set_styles g f) p] | None => [] end ++
    match ss with Some s => [stroked (set_styles g s) (match sp with Some q => q | None => p end)] | None => [] end ++
    flat_map (draw g) ornaments
  | Canvas c l => flat_map (draw (inner g c)) l
  end.

(** ** a PostScript interpreter *)
(** the graphics state with the current path and the font *)
Record psstate := mkps { p_ctm : trafo; p_clips : list (trafo * path); p_col : Z; p_alpha : Z; p_lines : list (Z * Z); p_path : path; p_font : option Z }.
Definition ps_step (o : psop) (m : psstate * list psstate) : option (psstate * list psstate * list mark) :=
  let (s, st) := m in
  let with_path q := mkps (p_ctm s) (p_clips s) (p_col s) (p_alpha s) (p_lines s) q (p_font s) in
  match o with
  | Gsave => Some (s, s :: st, [])
  | Grestore => match st with [] => None | s' :: r => Some (s', r, []) end
  | Setcolor c => Some (mkps (p_ctm s) (p_clips s) c (p_alpha s) (p_lines s) (p_path s) (p_font s), st, [])
  | Setalpha a => Some (mkps (p_ctm s) (p_clips s) (p_col s) a (p_lines s) (p_path s) (p_font s), st, [])
  | Setline k v => Some (mkps (p_ctm s) (p_clips s) (p_col s) (p_alpha s) (p_lines s ++ [(k, v)]) (p_path s) (p_font s), st, [])
  | Newpath => Some (with_path [], st, [])
  | Addpath q => Some (with_path (p_path s ++ q), st, [])
  | Clip => Some (mkps (p_ctm s) (p_clips s ++ [(p_ctm s, p_path s)]) (p_col s) (p_alpha s) (p_lines s) (p_path s) (p_font s), st, [])
  | Fill => Some (with_path [], st, [Filled (p_path s) (p_ctm s) (p_clips s) (p_col s) (p_alpha s) false])
  | Eofill => Some (with_path [], st, [Filled (p_path s) (p_ctm s) (p_clips s) (p_col s) (p_alpha s) true])
  | Stroke => Some (with_path [], st, [Stroked (p_path s) (p_ctm s) (p_clips s) (p_col s) (p_alpha s) (p_lines s)])
  | Concat t => Some (mkps (tmul (p_ctm s) t) (p_clips s) (p_col s) (p_alpha s) (p_lines s) (p_path s) (p_font s), st, [])
  | Selectfont f => Some (mkps (p_ctm s) (p_clips s) (p_col s) (p_alpha s) (p_lines s) (p_path s) (Some f), st, [])
  | Show k => Some (s, st, [Written k (p_font s) (p_ctm s) (p_clips s) (p_col s) (p_alpha s)])
  end.

(** running a list of operators *)
Fixpoint run {O M : Type} (step : O -> M -> option (M * list mark)) (ops : list O) (m : M) : option (M * list mark) :=
  match ops with
  | [] => Some (m, [])
  | o :: r => match step o m with
              | None => None
              | Some (m', out) => match run step r m' with None => None | Some (m'', out') => Some (m'', out ++ out') end
              end
  end.

(** ** a PDF interpreter *)
(** the graphics state; stroke and fill colour are apart *)
Record pdfstate := mkpdf { d_ctm : trafo; d_clips : list (trafo * path); d_scol : Z; d_fcol : Z; d_salpha : Z; d_falpha : Z;
                           d_lines : list (Z * Z); d_font : option Z }.
(** the state, the stack, the path under construction and whether we are in a text object *)
Record pdfmachine := mkpdfm { d_state : pdfstate; d_stack : list pdfstate; d_path : option path; d_text : bool }.
(** [strict]: between the construction of a path and its painting there are no other operators
    (PDF 32000-1, 8.2, figure 9); otherwise they are obeyed and keep the path, as the usual viewers
    do.  In a text object there are neither q, Q, cm nor paths. *)
Definition pdf_step (strict : bool) (o : pdfop) (m : pdfmachine) : option (pdfmachine * list mark) :=
  let s := d_state m in
  let page := negb (d_text m) && (negb strict || match d_path m with None => true | Some _ => false end) in
  let setting := negb strict || match d_path m with None => true | Some _ => false end in
  let next s' := Some (mkpdfm s' (d_stack m) (d_path m) (d_text m), []) in
  let fill q e := Filled q (d_ctm s) (d_clips s) (d_fcol s) (d_falpha s) e in
  let stroke q := Stroked q (d_ctm s) (d_clips s) (d_scol s) (d_salpha s) (d_lines s) in
  let paint f := match d_path m with
                 | None => None
                 | Some q => if d_text m then None else Some (mkpdfm s (d_stack m) None false, f q)
                 end in
  match o with
  | Q_save => if page then Some (mkpdfm s (s :: d_stack m) (d_path m) (d_text m), []) else None
  | Q_restore => if page then match d_stack m with [] => None | s' :: r => Some (mkpdfm s' r (d_path m) (d_text m), []) end else None
  | RG c => if setting then next (mkpdf (d_ctm s) (d_clips s) c (d_fcol s) (d_salpha s) (d_falpha s) (d_lines s) (d_font s)) else None
  | Rg c => if setting then next (mkpdf (d_ctm s) (d_clips s) (d_scol s) c (d_salpha s) (d_falpha s) (d_lines s) (d_font s)) else None
  | CA a => if setting then next (mkpdf (d_ctm s) (d_clips s) (d_scol s) (d_fcol s) a (d_falpha s) (d_lines s) (d_font s)) else None
  | Ca a => if setting then next (mkpdf (d_ctm s) (d_clips s) (d_scol s) (d_fcol s) (d_salpha s) a (d_lines s) (d_font s)) else None
  | Lineop k v => if setting then next (mkpdf (d_ctm s) (d_clips s) (d_scol s) (d_fcol s) (d_salpha s) (d_falpha s) (d_lines s ++ [(k, v)]) (d_font s)) else None
  | Pathop q => if d_text m then None
                else Some (mkpdfm s (d_stack m) (Some (match d_path m with Some q' => q' ++ q | None => q end)) false, [])
  | W_n => match d_path m with
           | None => None
           | Some q => if d_text m then None
                       else Some (mkpdfm (mkpdf (d_ctm s) (d_clips s ++ [(d_ctm s, q)]) (d_scol s) (d_fcol s) (d_salpha s) (d_falpha s) (d_lines s) (d_font s))
                                         (d_stack m) None false, [])
           end
  | F => paint (fun q => [fill q false])
  | Fstar => paint (fun q => [fill q true])
  | S_ => paint (fun q => [stroke q])
  | B => paint (fun q => [fill q false; stroke q])
  | Bstar => paint (fun q => [fill q true; stroke q])
  | Cm t => if page then next (mkpdf (tmul (d_ctm s) t) (d_clips s) (d_scol s) (d_fcol s) (d_salpha s) (d_falpha s) (d_lines s) (d_font s)) else None
  | BT => if page then Some (mkpdfm s (d_stack m) (d_path m) true, []) else None
  | ET => if d_text m then Some (mkpdfm s (d_stack m) (d_path m) false, []) else None
  | Tf f => if setting then next (mkpdf (d_ctm s) (d_clips s) (d_scol s) (d_fcol s) (d_salpha s) (d_falpha s) (d_lines s) (Some f)) else None
  | Tj k => if d_text m then Some (m, [Written k (d_font s) (d_ctm s) (d_clips s) (d_fcol s) (d_falpha s)]) else None
  end.

(** ** an SVG interpreter *)
(** What elements inherit.  The clip path of an element is taken in its own coordinates, including
    its attribute transform (SVG 1.1, 14.3.5). *)
Record svgstate := mksvg { v_ctm : trafo; v_clips : list (trafo * path); v_lines : list (Z * Z); v_rule : bool }.
Definition into (s : svgstate) (a : attrs) : svgstate :=
  let t := match s_trafo a with Some u => tmul (v_ctm s) u | None => v_ctm s end in
  mksvg t (v_clips s ++ match s_clip a with Some q => [(t, q)] | None => [] end) (v_lines s ++ s_lines a)
        (match s_rule a with Some b => b | None => v_rule s end).
Definition opacity_of (a : attrs) : Z := match s_opacity a with Some v => v | None => 1 end.
(** an element is first filled, then stroked *)
Definition svg_step (o : svgop) (m : svgstate * list svgstate) : option (svgstate * list svgstate * list mark) :=
  let (s, st) := m in
  match o with
  | StartG a => Some (into s a, s :: st, [])
  | EndG => match st with [] => None | s' :: r => Some (s', r, []) end
  | PathEl q a => let s' := into s a in
    Some (s, st, match s_fill a with Some c => [Filled q (v_ctm s') (v_clips s') c (opacity_of a) (v_rule s')] | None => [] end ++
                 match s_stroke a with Some c => [Stroked q (v_ctm s') (v_clips s') c (opacity_of a) (v_lines s')] | None => [] end)
  | TextEl k f a => let s' := into s a in
    Some (s, st, match s_fill a with Some c => [Written k (Some f) (v_ctm s') (v_clips s') c (opacity_of a)] | None => [] end)
  end.

(** ** conditions on items *)
(** every canvas inside was made by its constructor; stroke styles contain no fill rule and fill
    styles no line styles (checkattrs in the decorators, deco.py l.412, 434) *)
Definition strokestyle (s : style) : bool := match s with Rule _ => false | _ => true end.
Definition fillstyle (s : style) : bool := match s with Line _ _ => false | _ => true end.
Definition all_of {A} (f : A -> bool) (o : option (list A)) : bool := match o with Some l => forallb f l | None => true end.
Fixpoint built (it : item) : Prop :=
  match it with
  | Text _ _ => True
  | Path _ _ _ ss fs ornaments => all_of strokestyle ss = true /\ all_of fillstyle fs = true /\ fold_right (fun i P => built i /\ P) True ornaments
  | Canvas c l => (exists a, new_canvas a = Some c) /\ fold_right (fun i P => built i /\ P) True l
  end.
(** a condition for all parts of an item *)
Fixpoint everywhere (f : item -> bool) (it : item) : bool :=
  f it && match it with Text _ _ => true | Path _ _ _ _ _ l => forallb (everywhere f) l | Canvas _ l => forallb (everywhere f) l end.
(** no fill rule among the styles for filling *)
Definition no_rule (s : style) : bool := match s with Rule _ => false | _ => true end.
Definition rule_free (it : item) : bool := match it with Path _ _ _ _ fs _ => all_of no_rule fs | _ => true end.
(** does an item contain text outside of any group that saves and restores the state *)
Fixpoint loose_text (it : item) : bool :=
  match it with
  | Text _ _ => true
  | Path _ _ styles _ _ l => is_nil styles && existsb loose_text l
  | Canvas c l => negb (c_modifies c) && existsb loose_text l
  end.
(** a text, or an item without loose text *)
Definition font_tight (it : item) : bool := match it with Text _ _ => true | _ => negb (loose_text it) end.
(** marks but for the font of text *)
Definition unfont (m : mark) : mark := match m with Written k _ t c a b => Written k None t c a b | _ => m end.
(** Items whose SVG shows what ought to be drawn: a path with excluded ranges is not both stroked
    and filled; a path both stroked and filled has no opacity for only one of them; a path with
    ornaments has no colour and opacity for only stroking or filling; no part is fully transparent
    by styles of a canvas or global styles of a path. *)
Definition no_alpha (s : style) : bool := match s with Alpha _ => false | _ => true end.
Definition no_paint (s : style) : bool := match s with Alpha _ | Paint _ => false | _ => true end.
Definition visible (s : style) : bool := match s with Alpha a => negb (Z.eqb a 0) | _ => true end.
Definition svg_fit (it : item) : bool :=
  match it with
  | Text _ _ => true
  | Path _ sp styles ss fs l =>
    (match sp, ss, fs with Some _, Some _, Some _ => false | _, _, _ => true end) &&
    (match ss, fs with Some s, Some f => forallb no_alpha (s ++ f) | _, _ => true end) &&
    (is_nil l || (all_of no_paint ss && all_of no_paint fs)) && forallb visible styles
  | Canvas c _ => forallb visible (c_styles c)
  end.
(** the interpreters in the state given by a look *)
Definition ps_state (g : look) (q : path) (f : option Z) : psstate := mkps (ctm g) (clips g) (col g) (alpha g) (lines g) q f.
Definition pdf_state (g : look) (f : option Z) : pdfstate := mkpdf (ctm g) (clips g) (col g) (col g) (alpha g) (alpha g) (lines g) f.
Definition svg_state (g : look) : svgstate := mksvg (ctm g) (clips g) (lines g) (rule g).
(** the transformations among the attributes of a canvas, and their effect from left to right *)
Definition trafos (attrs : list cattr) : list trafo := flat_map (fun a => match a with ATrafo t => [t] | _ => [] end) attrs.
Definition one_after_the_other (l : list trafo) (pt : R * R) : R * R := fold_left (fun q t => apply_pt t q) l pt.
