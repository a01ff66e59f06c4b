(** Model of the specials of DVI files: pyx/dvi/dvifile.py, l.114-124, 223-320, 431-432, 465-469, and of the texts made of such pages:
    pyx/text.py, l.803-891.  The position in points of a special and its text come from [DviModel]; numbers are read by functions [fl] and [int].
    Lengths are points, so trafo.apply is apply_pt (trafo.py, l.116-124). *)
From Coq Require Import Ascii String ZArith Reals List Bool.
From Verif Require Import UnitModel TrafoModel ColorModel MapModel DviModel.
Import ListNotations.
Open Scope R_scope.

(** texts as lists of character codes *)
Definition kw (s : string) : chars := map (fun c => Z.of_nat (nat_of_ascii c)) (list_ascii_of_string s).
Definition bind {A B} (o : option A) (f : A -> option B) : option B := match o with Some a => f a | None => None end.
Fixpoint sequence {A} (l : list (option A)) : option (list A) := match l with [] => Some [] | o :: r => bind o (fun a => option_map (cons a) (sequence r)) end.

(** ** numbers in a color, dvifile.py l.261-262: [+-]?((\d+\.\d* )|(\d*\.\d+)|(\d+))([eE][+-]\d+)?, of which the first group is taken *)
Definition isdigit (c : Z) : bool := (48 <=? c)%Z && (c <=? 57)%Z.
Fixpoint span (s : chars) : chars * chars :=
  match s with c :: r => if isdigit c then let (d, t) := span r in (c :: d, t) else ([], s) | [] => ([], []) end.
(** the first group at the begin of a text, and what follows *)
Definition mantissa (s : chars) : option (chars * chars) :=
  match span s with
  | ([], 46%Z :: r) => match span r with ([], _) => None | (d, t) => Some (46%Z :: d, t) end
  | ([], _) => None
  | (d, 46%Z :: r) => let (e, t) := span r in Some (d ++ 46%Z :: e, t)
  | (d, t) => Some (d, t)
  end.
Definition exponent (s : chars) : chars :=
  match s with
  | c :: sg :: r => if ((c =? 101) || (c =? 69))%Z && ((sg =? 43) || (sg =? 45))%Z then match span r with ([], _) => s | (_, t) => t end else s
  | _ => s
  end.
Definition unsign (s : chars) : chars := match s with c :: r => if ((c =? 43) || (c =? 45))%Z then r else s | [] => [] end.
(** findall; [fuel] is the length of the text *)
Fixpoint findall (fuel : nat) (s : chars) : list chars :=
  match fuel with
  | O => []
  | S f => match s with
           | [] => []
           | _ :: r => match mantissa (unsign s) with Some (m, t) => m :: findall f (exponent t) | None => findall f r end
           end
  end.
Definition numpat (s : chars) : list chars := findall (List.length s) s.

(** the constructors of color.py, l.73, 116, 192, 232: missing values are 0, too many ones are an error *)
Definition construct (model : chars) (l : list R) : option color :=
  if chars_eqb model (kw "cmyk") then
    match l with [] => new_cmyk 0 0 0 0 | [a] => new_cmyk a 0 0 0 | [a; b] => new_cmyk a b 0 0 | [a; b; c] => new_cmyk a b c 0 | [a; b; c; d] => new_cmyk a b c d | _ => None end
  else if chars_eqb model (kw "rgb") then match l with [] => new_rgb 0 0 0 | [a] => new_rgb a 0 0 | [a; b] => new_rgb a b 0 | [a; b; c] => new_rgb a b c | _ => None end
  else if chars_eqb model (kw "hsb") then match l with [] => new_hsb 0 0 0 | [a] => new_hsb a 0 0 | [a; b] => new_hsb a b 0 | [a; b; c] => new_hsb a b c | _ => None end
  else match l with [] => new_gray 0 | [a] => new_gray a | _ => None end.

(** ** the commands, l.240-320 *)
Record eps := mkeps { e_file : chars; e_box : R * R * R * R; e_width : option R; e_height : option R; e_clip : option Z }.
Inductive command := ColorBegin (c : color) | RotateBegin (angle : R) | ScaleBegin (sx sy : R) | End_ | Include (e : eps) | Marker (name : chars).

Section PARSE.
Variable fl : chars -> option R.
Variable int : chars -> option Z.
(** the color of that name in a color model, l.252, 269 *)
Variable named : chars -> chars -> option color.

Definition arg (l : list chars) (n : nat) : option R := bind (nth_error l n) fl.
(** optional prefixes of the pattern of l.257 *)
Definition drop (p : string) (s : chars) : chars := if startswith (kw p) s then skipn (List.length (kw p)) s else s.
Fixpoint joinspace (l : list chars) : chars := match l with [] => [] | [w] => w | w :: r => w ++ 32%Z :: joinspace r end.
(** l.254-274.  An optional prefix that is there is always used: the models do not begin with pyx or color. *)
Definition pyxcolor (s : chars) : option color :=
  let s := drop "color." (drop "pyx." s) in
  match find (fun m => startswith m s) [kw "cmyk"; kw "rgb"; kw "grey"; kw "gray"; kw "hsb"] with
  | None => None
  | Some model =>
      match drop "." (skipn (List.length model) s) with
      | [] => None (* sd["arg"][0] is an error *)
      | c :: r => if (c =? 40)%Z then bind (sequence (map fl (numpat (c :: r)))) (construct model) else named model (c :: r)
      end
  end.
(** l.241-276 *)
Definition getcolor (args : list chars) : option color :=
  match args with
  | [] => None
  | m :: l =>
      if chars_eqb m (kw "cmyk") then bind (arg l 0) (fun a => bind (arg l 1) (fun b => bind (arg l 2) (fun c => bind (arg l 3) (fun d => new_cmyk a b c d))))
      else if chars_eqb m (kw "gray") then bind (arg l 0) new_gray
      else if chars_eqb m (kw "hsb") then bind (arg l 0) (fun a => bind (arg l 1) (fun b => bind (arg l 2) (fun c => new_hsb a b c)))
      else if chars_eqb m (kw "rgb") then bind (arg l 0) (fun a => bind (arg l 1) (fun b => bind (arg l 2) (fun c => new_rgb a b c)))
      else if chars_eqb m (kw "RGB") then
        let i n := option_map (fun z => IZR z / 255) (bind (nth_error l n) int) in bind (i 0%nat) (fun a => bind (i 1%nat) (fun b => bind (i 2%nat) (fun c => new_rgb a b c)))
      else if chars_eqb m (kw "texnamed") then bind (nth_error l 0) (named (kw "cmyk"))
      else if chars_eqb m (kw "pyxcolor") then pyxcolor (joinspace l)
      else None
  end.
(** l.289-305: name=value; for a name given twice the later value counts *)
Fixpoint cut (s : chars) : option (chars * chars) := match s with [] => None | c :: r => if (c =? 61)%Z then Some ([], r) else option_map (fun p => (c :: fst p, snd p)) (cut r) end.
Definition keyvalue (s : chars) : option (chars * chars) := match cut s with Some (k, v) => if existsb (Z.eqb 61) v then None else Some (k, v) | None => None end.
Definition value (d : list (chars * chars)) (k : string) : option chars := option_map snd (find (fun p => chars_eqb (fst p) (kw k)) (rev d)).
(** a value that may be missing, but has to be a number if it is there *)
Definition optional {A} (read : chars -> option A) (o : option chars) : option (option A) := match o with None => Some None | Some s => option_map Some (read s) end.
Definition getinclude (args : list chars) : option eps :=
  bind (sequence (map keyvalue args)) (fun d =>
  bind (value d "file") (fun f =>
  bind (bind (value d "llx") fl) (fun x1 => bind (bind (value d "lly") fl) (fun y1 => bind (bind (value d "urx") fl) (fun x2 => bind (bind (value d "ury") fl) (fun y2 =>
  bind (optional fl (value d "width")) (fun w => bind (optional fl (value d "height")) (fun h => bind (optional int (value d "clip")) (fun c =>
    Some (mkeps f (x1, y1, x2, y2) w h c)))))))))).
(** l.312-315 *)
Definition markerchar (c : Z) : bool := isdigit c || ((65 <=? c) && (c <=? 90))%Z || ((97 <=? c) && (c <=? 122))%Z || (c =? 64)%Z.
(** l.239-320; [s] is the text after PyX: *)
Definition getcommand (s : chars) : option command :=
  match split s with
  | [] => None
  | cmd :: args =>
      if chars_eqb cmd (kw "color_begin") then option_map ColorBegin (getcolor args)
      else if chars_eqb cmd (kw "color_end") then Some End_
      else if chars_eqb cmd (kw "rotate_begin") then option_map RotateBegin (arg args 0)
      else if chars_eqb cmd (kw "rotate_end") then Some End_
      else if chars_eqb cmd (kw "scale_begin") then bind (arg args 0) (fun a => option_map (ScaleBegin a) (arg args 1))
      else if chars_eqb cmd (kw "scale_end") then Some End_
      else if chars_eqb cmd (kw "epsinclude") then option_map Include (getinclude args)
      else if chars_eqb cmd (kw "marker") then match args with [n] => if forallb markerchar n then Some (Marker n) else None | _ => None end
      else None
  end.

(** ** the canvases of a page, l.114-124 *)
(** what is drawn: texts and rectangles of [DviModel], EPS files at a point, and canvases with a transformation or a color *)
Inductive node := Leaf (i : item) | Eps (e : eps) (x_pt y_pt : R) | Sub (t : trafo) (c : option color) (l : list node).
(** a canvas: its transformation, color, items and markers *)
Record canvas := mkcanvas { c_trafo : trafo; c_color : option color; c_items : list node; c_markers : list (chars * (R * R)) }.
Definition id_trafo : trafo := mktrafo 1 0 0 1 0 0.
Definition getmarker (m : list (chars * (R * R))) (k : chars) : option (R * R) := option_map snd (find (fun p => chars_eqb (fst p) k) m).
(** assignment to an entry of the dictionary of markers *)
Definition setmarker (m : list (chars * (R * R))) (k : chars) (v : R * R) : list (chars * (R * R)) :=
  if existsb (fun p => chars_eqb (fst p) k) m then map (fun p => if chars_eqb (fst p) k then (fst p, v) else p) m else m ++ [(k, v)].
Definition add_item (n : node) (c : canvas) : canvas := mkcanvas (c_trafo c) (c_color c) (c_items c ++ [n]) (c_markers c).
Definition set_markers (m : list (chars * (R * R))) (c : canvas) : canvas := mkcanvas (c_trafo c) (c_color c) (c_items c) m.
(** the canvases that are not finished, the innermost first.  A new canvas is inserted into its parent at once (l.118); as it is not drawn before the page is finished,
    here it is put there when it is finished.  At the end of the page see [finish]. *)
Definition open := list canvas.
Definition beginsubpage (t : trafo) (c : option color) (s : open) : open := mkcanvas t c [] [] :: s.
(** l.121-124; the page has no parent *)
Definition endsubpage (s : open) : option open :=
  match s with
  | c :: p :: r => Some (add_item (Sub (c_trafo c) (c_color c) (c_items c)) (set_markers (fold_left (fun m kv => setmarker m (fst kv) (apply_pt (c_trafo c) (snd kv))) (c_markers c) (c_markers p)) p) :: r)
  | _ => None
  end.
Definition insert (n : node) (s : open) : option open := match s with c :: r => Some (add_item n c :: r) | [] => None end.
(** l.240-320: [x] and [y] are the position *)
Definition execute (cmd : command) (x y : R) (s : open) : option open :=
  match cmd with
  | ColorBegin c => Some (beginsubpage id_trafo (Some c) s)
  | RotateBegin a => option_map (fun t => beginsubpage t None s) (rotate_pt a (Centre x y))
  | ScaleBegin a b => option_map (fun t => beginsubpage t None s) (scale_pt a (Some b) (Centre x y))
  | End_ => endsubpage s
  | Include e => insert (Eps e x y) s
  | Marker n => match s with c :: r => if existsb (fun p => chars_eqb (fst p) n) (c_markers c) then None else Some (set_markers (c_markers c ++ [(n, (x, y))]) c :: r) | [] => None end
  end.
(** one of the items of [DviModel]: texts and rectangles are inserted, specials are done *)
Definition place (i : item) (s : open) : option open :=
  match i with
  | Special t x y => bind (getcommand (skipn 4 t)) (fun cmd => execute cmd x y s)
  | _ => insert (Leaf i) s
  end.
Fixpoint places (l : list item) (s : open) : option open := match l with [] => Some s | i :: r => bind (place i s) (places r) end.
(** l.431-432 and 469: the page has the transformation of the text; at the end the innermost canvas that is not finished is returned *)
Definition finish (s : open) : option canvas := match s with c :: _ => Some c | [] => None end.
Definition page (texttrafo : trafo) (l : list item) : option canvas := bind (places l [mkcanvas (tmul id_trafo texttrafo) None [] []]) finish.
End PARSE.

(** ** texts, pyx/text.py l.803-891 *)
(** the transformation of the text and the canvas, which is made when it is needed *)
Record textbox := mktext { texttrafo : trafo; dvicanvas : option canvas }.
(** l.840 *)
Definition new_textbox (scalex x_pt y_pt : R) : option textbox := option_map (fun t => mktext (tmul (translate_pt x_pt y_pt) t) None) (scale_pt scalex None NoCentre).
Definition with_trafo (t : trafo) (c : canvas) : canvas := mkcanvas t (c_color c) (c_items c) (c_markers c).
(** transform, l.848-854, without the box *)
Definition transform (ts : list trafo) (b : textbox) : textbox :=
  mktext (fold_left (fun s t => tmul t s) ts (texttrafo b)) (option_map (fun c => with_trafo (fold_left (fun s t => tmul t s) ts (c_trafo c)) c) (dvicanvas b)).
(** readdvipage and dvicanvas, l.856-864: the page is read once *)
Definition read_text fl int named (l : list item) (b : textbox) : option textbox :=
  match dvicanvas b with Some _ => Some b | None => option_map (fun c => mktext (texttrafo b) (Some c)) (page fl int named (texttrafo b) l) end.
(** marker, l.885 *)
Definition marker (b : textbox) (n : chars) : option (R * R) := bind (dvicanvas b) (fun c => option_map (apply_pt (texttrafo b)) (getmarker (c_markers c) n)).
(** textpath, l.887-891: the texts; rectangles, EPS files and canvases have no method textpath *)
Definition textpath (b : textbox) : option (list (font * R * R * list Z)) :=
  bind (dvicanvas b) (fun c => sequence (map (fun n => match n with Leaf (Text f x y l) => Some (f, x, y, l) | _ => None end) (c_items c))).
