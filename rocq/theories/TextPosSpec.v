(** What text operators of PostScript, PDF and SVG draw, and where the glyphs of a text have to
    be (used in TextPosProps.v). *)
From Coq Require Import ZArith Ascii String List Bool Reals.
From Verif Require Import PdfSpec TextEncModel TextPosModel.
Import ListNotations.
Local Open Scope R_scope.

(** a glyph with the place of its origin *)
Definition glyphat := (R * R * string)%type.

(** the glyphs one after the other from a point, at the distance of the width and the gap of
    the pair *)
Inductive laid (width : string -> R) (gap : string -> string -> R) (y : R) : R -> list string -> list glyphat -> Prop :=
| laid_nil x : laid width gap y x [] []
| laid_last x g : laid width gap y x [g] [(x, y, g)]
| laid_next x g h gs l : laid width gap y (x + width g + gap g h) (h :: gs) l ->
    laid width gap y x (g :: h :: gs) ((x, y, g) :: l).

(** the codes in the characters between two parentheses *)
Definition readstring (s : list Z) : option (list Z) :=
  match literal 0 (s ++ [41%Z]) with Some (cs, []) => Some cs | _ => None end.

(** show: glyphs are drawn one after the other, each moving the current point by its width *)
Fixpoint show (glyph : Z -> option string) (width : string -> R) (x y : R) (cs : list Z) : option (list glyphat * R) :=
  match cs with
  | [] => Some ([], x)
  | c :: r =>
      match glyph c with
      | None => None
      | Some g =>
          match show glyph width (x + width g) y r with
          | Some (l, x') => Some ((x, y, g) :: l, x')
          | None => None
          end
      end
  end.

(** PostScript with current point and one string on the stack *)
Fixpoint ps_run (glyph : Z -> option string) (width : string -> R) (point : option (R * R)) (stack : option (list Z)) (ops : list psop)
  : option (list glyphat) :=
  match ops with
  | [] => match stack with None => Some [] | Some _ => None end
  | PSmoveto x y :: r => ps_run glyph width (Some (x, y)) stack r
  | PSrmoveto dx dy :: r =>
      match point with Some (x, y) => ps_run glyph width (Some (x + dx, y + dy)) stack r | None => None end
  | PSstring s :: r =>
      match stack, readstring s with None, Some cs => ps_run glyph width point (Some cs) r | _, _ => None end
  | PSshow :: r =>
      match point, stack with
      | Some (x, y), Some cs =>
          match show glyph width x y cs with
          | Some (l, x') => match ps_run glyph width (Some (x', y)) None r with Some l' => Some (l ++ l') | None => None end
          | None => None
          end
      | _, _ => None
      end
  end.

(** PDF: strings and numbers of TJ, where a number moves back by thousandths of the size; [t] is the
    place in text space *)
Fixpoint tj_run (glyph : Z -> option string) (width : string -> R) (size : R) (t : R) (l : list tjitem) : option (list (R * string)) :=
  match l with
  | [] => Some []
  | TJnumber n :: r => tj_run glyph width size (t - n / 1000 * size) r
  | TJstring s :: r =>
      match readstring s with
      | None => None
      | Some cs =>
          match show glyph width t 0 cs with
          | Some (d, t') =>
              match tj_run glyph width size t' r with
              | Some d' => Some (map (fun a => (fst (fst a), snd a)) d ++ d')
              | None => None
              end
          | None => None
          end
      end
  end.
(** a text matrix and one text operator; each glyph is drawn with the linear part of the matrix
    at the image of its place *)
Definition pdf_run (glyph : Z -> option string) (width : string -> R) (size : R) (ops : list pdfop)
  : option (R * R * R * R * list glyphat) :=
  match ops with
  | [PDFTm a b c d e f; op] =>
      match tj_run glyph width size 0 (match op with PDFTJ l => l | PDFTj s => [TJstring s] | _ => [] end) with
      | Some l => Some (a, b, c, d, map (fun tg => (a * fst tg + e, b * fst tg + f, snd tg)) l)
      | None => None
      end
  | _ => None
  end.

(** SVG: [shift] is the shift of an open tspan without any character yet; [depth] is 0 outside of
    the text, 1 in it and 2 in a tspan; the y axis of SVG goes downwards *)
Fixpoint svg_run (glyph : Z -> option string) (width : string -> R) (depth : nat) (x y shift : R) (evs : list svgev)
  : option (list glyphat) :=
  match evs with
  | [] => match depth with O => Some [] | _ => None end
  | SVGtext x' y' :: r => match depth with O => svg_run glyph width 1 x' y' 0 r | _ => None end
  | SVGtspan dx :: r => match depth with S O => svg_run glyph width 2 x y dx r | _ => None end
  | SVGendtspan :: r => match depth with S (S O) => svg_run glyph width 1 x y 0 r | _ => None end
  | SVGendtext :: r => match depth with S O => svg_run glyph width 0 x y 0 r | _ => None end
  | SVGchar c :: r =>
      match depth, glyph c with
      | S _, Some g =>
          match svg_run glyph width depth (x + shift + width g) y 0 r with
          | Some l => Some ((x + shift, - y, g) :: l)
          | None => None
          end
      | _, _ => None
      end
  end.

(** what a text asks for: its glyphs [gs], which the font selects by the codes of the encoding *)
Definition asks (e : enc) (glyph : Z -> option string) (t : text) (gs : list string) : Prop :=
  if decode t then
    glyphnames t = gs /\ Forall (fun g => exists c, item g e = Some c /\ (0 <= c < 256)%Z /\ glyph c = Some g) gs
  else kerning t = false /\ Forall2 (fun c g => (0 <= c < 256)%Z /\ glyph c = Some g) (charcodes t) gs.

(** the gap between two glyphs: the kerning of the pair if asked for, and the space *)
Definition gap (kern : string -> string -> option R) (t : text) (g h : string) : R :=
  (if kerning t then match kern g h with Some k => k * (size_pt t / 1000) | None => 0 end else 0) + spaced_pt t.
Definition scaled (width : string -> R) (t : text) (g : string) : R := width g * (size_pt t / 1000).
