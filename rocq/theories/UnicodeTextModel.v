(** Model of the texts of the Unicode engine: pyx/text.py, l.1557-1638 (Text, StackedText and unicodetextbox_pt) and l.1742-1759 (UnicodeEngine.text_pt), with real numbers
    for floats.  A text is a list of code points.  The font is given by what is taken from it: the box of a text and the numbers of _extract_minus_properties (l.1640-1645);
    how these are computed from the glyphs is not modelled.  The output and the transformations of the box (reltransform) are not modelled. *)
From Coq Require Import String Reals ZArith List Bool.
From Verif Require Import BboxModel AttrModel.
Import ListNotations.
Open Scope R_scope.

Definition text := list Z.
(** Text, l.1557-1569; [Str] is a str among the texts *)
Record rich := mkrich { r_text : text; r_scale : R; r_shift : R }.
(** the elements of texts, with StackedText, l.1572-1586; a str in a StackedText is an AttributeError (l.1625), so there are none here *)
Inductive element := Str (s : text) | Rich (t : rich) | Stacked (ts : list rich) (frac : bool) (align : R).

(** what is put into self.canvas: a text at a place with its size, moved to the right by [dx] (l.1631), or a filled rectangle *)
Inductive item := Glyphs (dx x y : R) (s : text) (size : R) | Rule (x y w h : R).

(** str.split of a character, which has at least one part *)
Fixpoint split (c : Z) (s : text) : list text :=
  match s with
  | [] => [[]]
  | d :: r => if Z.eqb c d then [] :: split c r else match split c r with p :: ps => (d :: p) :: ps | [] => [[d]] end
  end.
(** replace of the middle dot by x, l.1619 *)
Definition nodot (s : text) : text := map (fun c => if Z.eqb c 183 then 120%Z else c) s.

Section Box.
(** the width, depth and height of font.text_pt(x, y, s, size).bbox(), font.py l.474-487, relative to (x, y); None is an exception *)
Variable extent : text -> R -> option (R * R * R).
Definition width (s : text) (size : R) : option R := match extent s size with Some (w, _, _) => Some w | None => None end.
(** the attributes of the font, l.1640-1645, and self.size *)
Variables thickness halfwidth axis length size : R.
(** l.1647-1669 *)
Definition mathaxis_pt := axis * size.
Definition minuswidth_pt := 2 * halfwidth * size.
Definition minuslength_pt := length * size.
Definition minusthickness_pt := thickness * size.

(** the minus of l.1611 *)
Definition minus (x : R) : item := Rule (x + 0.5 * (minuswidth_pt - minuslength_pt)) (mathaxis_pt - 0.5 * minusthickness_pt) minuslength_pt minusthickness_pt.
(** l.1613-1621: the item and x_pt behind it; None is an exception *)
Definition set_fragment (x y : R) (s : text) (sz : R) : option (item * R) :=
  match width s sz with
  | Some w => Some (Glyphs 0 x y s sz, x + w)
  | None => if existsb (Z.eqb 183) s then match width (nodot s) sz with Some w => Some (Glyphs 0 x y (nodot s) sz, x + w) | None => None end else None
  end.
(** the loop l.1609-1621; [first] is that i is 0 *)
Fixpoint set_fragments (first : bool) (x y sz : R) (l : list text) : option (list item * R) :=
  match l with
  | [] => Some ([], x)
  | s :: l' =>
      let before := if first then [] else [minus x] in
      let x := if first then x else x + minuswidth_pt in
      match s with
      | [] => match set_fragments false x y sz l' with Some (is, x') => Some (before ++ is, x') | None => None end
      | _ => match set_fragment x y s sz with
             | Some (i, x) => match set_fragments false x y sz l' with Some (is, x') => Some (before ++ i :: is, x') | None => None end
             | None => None
             end
      end
  end.
(** the widths of the texts of a StackedText, l.1625-1627; None is an exception *)
Fixpoint widths (ts : list rich) : option (list R) :=
  match ts with
  | [] => Some []
  | t :: ts' => match width (r_text t) (r_scale t * size), widths ts' with Some w, Some ws => Some (w :: ws) | _, _ => None end
  end.
(** max of l.1627; of no texts it is a ValueError *)
Definition maximum (ws : list R) : option R := match ws with [] => None | w :: ws' => Some (fold_left Rmax ws' w) end.
(** l.1622-1632 *)
Definition set_stacked (x : R) (ts : list rich) (frac : bool) (align : R) : option (list item * R) :=
  let shift := if frac then mathaxis_pt else 0 in
  match widths ts with
  | Some ws => match maximum ws with
               | Some w => Some ((if frac then [Rule x (mathaxis_pt - 0.5 * minusthickness_pt) w minusthickness_pt] else []) ++
                                 map (fun '(t, wt) => Glyphs (align * (w - wt)) x (r_shift t * size + shift) (r_text t) (r_scale t * size)) (combine ts ws), x + w)
               | None => None
               end
  | None => None
  end.
(** the body of the loop l.1601 *)
Definition set_element (mathmode : bool) (x : R) (e : element) : option (list item * R) :=
  match e with
  | Str s => set_fragments true x (0 * size) (1 * size) (if mathmode then split 45 s else [s])
  | Rich t => set_fragments true x (r_shift t * size) (r_scale t * size) (if mathmode then split 45 (r_text t) else [r_text t])
  | Stacked ts frac align => set_stacked x ts frac align
  end.
(** the loop l.1600-1632: the items and x_pt behind it *)
Fixpoint set_elements (mathmode : bool) (x : R) (l : list element) : option (list item * R) :=
  match l with
  | [] => Some ([], x)
  | e :: l' => match set_element mathmode x e with
               | Some (is, x) => match set_elements mathmode x l' with Some (is', x') => Some (is ++ is', x') | None => None end
               | None => None
               end
  end.
Definition textbox (mathmode : bool) (l : list element) : option (list item * R) := set_elements mathmode 0 l.

(** the boxes of the items: those of the texts and of rectangles (path.py l.1339-1348) *)
Definition item_bbox (i : item) : option bbox :=
  match i with
  | Glyphs dx x y s sz => match extent s sz with Some (w, d, h) => Some (mkbbox (Some (dx + x)) (y + d) (dx + x + w) (y + h)) | None => None end
  | Rule x y w h => Some (mkbbox (Some (Rmin x (x + w))) (Rmin y (y + h)) (Rmax x (x + w)) (Rmax y (y + h)))
  end.
Fixpoint bboxes (l : list item) : option (list bbox) :=
  match l with [] => Some [] | i :: l' => match item_bbox i, bboxes l' with Some b, Some bs => Some (b :: bs) | _, _ => None end end.
(** l.1634-1636: the box before it is transformed *)
Definition box_bbox (mathmode : bool) (l : list element) : option bbox :=
  match textbox mathmode l with
  | Some (is, x) => match bboxes is with
                    | Some bs => Some (includepoint_pt (includepoint_pt (fold_left biadd bs empty) (0, 0)) (x, 0))
                    | None => None
                    end
  | None => None
  end.
End Box.

(** UnicodeEngine.text_pt, l.1744-1751: whether a box is made, and with which mathmode.  The attributes are instances of attr.attr. *)
Inductive request := Rejected | ValueError | MakeBox (mathmode : bool).
Definition textattr_classes : list cls := ["textattr"; "trafo_pt"; "fillstyle"]%string.
Definition text_pt_attrs (textattrs : list attr) : request :=
  let textattrs := mergeattrs textattrs in
  match checkattrs textattrs textattr_classes with
  | CheckOk =>
      let textattrs := getattrs textattrs ["textattr"%string] in
      let mathmode := match getattrs textattrs ["_mathmode"%string] with [] => false | _ => true end in
      match textattrs with [] => MakeBox mathmode | _ => ValueError end
  | _ => Rejected
  end.
(** mathmode, l.468-480 *)
Definition mathmode_attr : attr := mkattr 0 ["_mathmode"; "exclusiveattr"; "attr"; "textattr"; "_localattr"]%string (Excl "_mathmode"%string).
