(** Model of the output of a text: T1text_pt (font/font.py l.447-761) with kernings
    (font/metric.py l.41-45, font/afmfile.py l.1400-1411) and the widths of fonts in PDF files
    (l.150-200 of font/font.py). Numbers are real numbers; the rounding of the percent-f format is
    not modelled. *)
From Coq Require Import ZArith Ascii String List Bool Reals Lra.
From Verif Require Import TextEncModel.
Import ListNotations.
Local Open Scope R_scope.

(** an entry of the list which is written: a glyph name, a code or a kerning, which may be
    None *)
Inductive value := Name (g : string) | Code (c : Z) | Num (k : option R).

Definition Reqb (a b : R) : bool := if Req_EM_T a b then true else false.

Section Text.
(** resolvekernings of the metric: the kerning of each pair of glyphs in font units *)
Variable kern : string -> string -> option R.

(** AFMfile.resolvekernings, afmfile.py l.1400-1411: glyph names at the even and kernings at
    the odd positions of a list with 2 n - 1 entries; [scale] is the size over 1000 or, without
    size, 1. The list made first and filled by index is made in order here. *)
Fixpoint resolvekernings (scale : R) (gs : list string) : list value :=
  match gs with
  | [] => []
  | g :: r =>
      Name g ::
      match r with
      | [] => []
      | h :: _ => Num (match kern g h with Some k => Some (k * scale) | None => None end) :: resolvekernings scale r
      end
  end.
End Text.

(** the parameters of a text, l.449-464; the font is given by its metric and, for the text as
    path, by the glyphs of the font file. [decode] with the glyph names or the codes as given. *)
Record text := mktextpt {
  x_pt : R; y_pt : R; size_pt : R; spaced_pt : R; slant : option R; kerning : bool;
  decode : bool; glyphnames : list string; charcodes : list Z }.

(** l.468-471 *)
Definition valid (t : text) : bool := negb (kerning t && negb (decode t)).

(** the data of l.578-584, l.719-725 and l.514-520 (with the size) and of l.664-670 (without) *)
Definition data (kern : string -> string -> option R) (scale : R) (t : text) : list value :=
  if decode t then
    if kerning t then resolvekernings kern scale (glyphnames t) else map Name (glyphnames t)
  else map Code (charcodes t).

(** l.589-590: encoding[value]; [None] is an error *)
Definition code_of (e : enc) (v : value) : option Z :=
  match v with Name g => item g e | Code c => Some c | Num _ => None end.

(** ** PostScript *)

Inductive psop := PSmoveto (x y : R) | PSstring (chars : list Z) | PSshow | PSrmoveto (x y : R).

Definition ocons {A} (p : list A) (r : option (list A)) : option (list A) :=
  match r with Some l => Some (p ++ l) | None => None end.

(** l.585-598; [cur] are the characters written since the last opening parenthesis *)
Fixpoint ps_loop (kerning : bool) (spaced : R) (e : enc) (i : nat) (data : list value) (cur : list Z) : option (list psop) :=
  match data with
  | [] => Some [PSstring cur; PSshow]
  | v :: r =>
      if kerning && Nat.odd i then
        match v with
        | Num (Some k) => ocons [PSstring cur; PSshow; PSrmoveto (k + spaced) 0] (ps_loop kerning spaced e (S i) r [])
        | Num None =>
            if negb (Reqb spaced 0) then ocons [PSstring cur; PSshow; PSrmoveto spaced 0] (ps_loop kerning spaced e (S i) r [])
            else ps_loop kerning spaced e (S i) r cur
        | _ => None
        end
      else
        match code_of e v with
        | None => None
        | Some c =>
            if (0 <? i)%nat && negb kerning && negb (Reqb spaced 0) then
              ocons [PSstring cur; PSshow; PSrmoveto spaced 0] (ps_loop kerning spaced e (S i) r (ps_char c))
            else ps_loop kerning spaced e (S i) r (cur ++ ps_char c)
        end
  end.

(** l.577-598; the selection of the font is in CanvasModel.v *)
Definition processPS (kern : string -> string -> option R) (e : enc) (t : text) : option (list psop) :=
  ocons [PSmoveto (x_pt t) (y_pt t)]
    (ps_loop (kerning t) (spaced_pt t) e 0 (data kern (size_pt t / 1000) t) []).

(** the matrix of the font, l.563-569: with a slant the matrix ((1, slant), (0, 1)) times the
    matrix of the font file, or alone for a font without file; [fontmatrix] has the four
    entries row by row *)
Definition ps_fontmatrix (fontmatrix : option (R * R * R * R)) (builtin : R * R * R * R) (sl : option R) : R * R * R * R :=
  match sl with
  | None => builtin
  | Some s =>
      if Reqb s 0 then builtin
      else match fontmatrix with
           | Some (a, b, c, d) => (a + s * c, b + s * d, c, d)
           | None => (1, s, 0, 1)
           end
  end.

(** ** PDF *)

Inductive tjitem := TJstring (chars : list Z) | TJnumber (n : R).
Inductive pdfop := PDFTm (a b c d e f : R) | PDFTJ (l : list tjitem) | PDFTj (chars : list Z).

(** l.672-684 *)
Fixpoint pdf_loop (kerning : bool) (spaced : R) (e : enc) (i : nat) (data : list value) (cur : list Z) : option (list tjitem) :=
  match data with
  | [] => Some [TJstring cur]
  | v :: r =>
      if kerning && Nat.odd i then
        match v with
        | Num (Some k) => ocons [TJstring cur; TJnumber (- k - spaced)] (pdf_loop kerning spaced e (S i) r [])
        | Num None =>
            if negb (Reqb spaced 0) then ocons [TJstring cur; TJnumber (- spaced)] (pdf_loop kerning spaced e (S i) r [])
            else pdf_loop kerning spaced e (S i) r cur
        | _ => None
        end
      else
        match code_of e v with
        | None => None
        | Some c =>
            if (0 <? i)%nat && negb kerning && negb (Reqb spaced 0) then
              ocons [TJstring cur; TJnumber (- spaced)] (pdf_loop kerning spaced e (S i) r (pdf_char c))
            else pdf_loop kerning spaced e (S i) r (cur ++ pdf_char c)
        end
  end.

(** l.643-688; without kerning and space only one string is there and Tj is used *)
Definition processPDF (kern : string -> string -> option R) (e : enc) (t : text) : option (list pdfop) :=
  let slantvalue := match slant t with Some s => s | None => 0 end in
  let spaced := spaced_pt t * 1000 / size_pt t in
  match pdf_loop (kerning t) spaced e 0 (data kern 1 t) [] with
  | None => None
  | Some l =>
      Some (PDFTm 1 0 slantvalue 1 (x_pt t) (y_pt t) ::
            [if kerning t || negb (Reqb spaced 0) then PDFTJ l
             else PDFTj (flat_map (fun i => match i with TJstring s => s | TJnumber _ => [] end) l)])
  end.

(** percent i of a number: the fractional part is dropped *)
Definition trunc (r : R) : Z := if Rle_dec 0 r then Int_part r else (- Int_part (- r))%Z.

(** PDFfont.write, l.160-188: the first and the last code and the widths in between; [codes] is
    the set of the codes of all texts with this font, [width] the width of the glyph with a code *)
Definition zmin (l : list Z) : option Z := match l with [] => None | c :: r => Some (fold_left Z.min r c) end.
Definition zmax (l : list Z) : option Z := match l with [] => None | c :: r => Some (fold_left Z.max r c) end.
Definition pdf_widths (codes : list Z) (width : Z -> R) : option (Z * Z * list Z) :=
  match zmin codes, zmax codes with
  | Some a, Some b =>
      Some (a, b, map (fun n => let i := (a + Z.of_nat n)%Z in
                                if existsb (Z.eqb i) codes then trunc (width i) else 0%Z)
                      (seq 0 (Z.to_nat (b + 1 - a))))
  | _, _ => None
  end.

(** ** SVG *)

(** start of a text element with its place, start of a tspan with its shift, characters and
    end tags *)
Inductive svgev := SVGtext (x y : R) | SVGtspan (dx : R) | SVGchar (c : Z) | SVGendtspan | SVGendtext.

(** l.738-760; [chars] is the mapping of the glyph names or codes to characters, [tspan] the
    flag of l.737 *)
Definition reopen (tspan : bool) (dx : R) : list svgev := (if tspan then [SVGendtspan] else []) ++ [SVGtspan dx].
Fixpoint svg_loop (kerning : bool) (spaced : R) (chars : value -> option Z) (tspan : bool) (i : nat) (data : list value)
  : option (list svgev) :=
  match data with
  | [] => Some (if tspan then [SVGendtspan; SVGendtext] else [SVGendtext])
  | v :: r =>
      if kerning && Nat.odd i then
        match v with
        | Num (Some k) => ocons (reopen tspan (k + spaced)) (svg_loop kerning spaced chars true (S i) r)
        | Num None =>
            if negb (Reqb spaced 0) then ocons (reopen tspan spaced) (svg_loop kerning spaced chars true (S i) r)
            else svg_loop kerning spaced chars tspan (S i) r
        | _ => None
        end
      else
        match chars v with
        | None => None
        | Some c =>
            if (0 <? i)%nat && negb kerning && negb (Reqb spaced 0) then
              ocons (reopen tspan spaced ++ [SVGchar c]) (svg_loop kerning spaced chars true (S i) r)
            else ocons [SVGchar c] (svg_loop kerning spaced chars tspan (S i) r)
        end
  end.

(** l.726-736: the slant calls a method outputSVGattrs of the transformation, which does not
    exist (trafo.py l.109 has processSVGattrs), hence an AttributeError for any slant but 0 *)
Definition processSVG (kern : string -> string -> option R) (chars : value -> option Z) (t : text) : option (list svgev) :=
  match slant t with
  | Some s => if Reqb s 0 then ocons [SVGtext (x_pt t) (- y_pt t)]
                                 (svg_loop (kerning t) (spaced_pt t) chars false 0 (data kern (size_pt t / 1000) t))
              else None
  | None => ocons [SVGtext (x_pt t) (- y_pt t)]
              (svg_loop (kerning t) (spaced_pt t) chars false 0 (data kern (size_pt t / 1000) t))
  end.

(** ** text as path *)

(** textpath, l.512-536: the glyphs with their places; [advance] are the widths of the glyph in
    points at the given size (t1file.getglyphpath_pt) *)
Fixpoint path_loop (kerning : bool) (spaced : R) (advance : value -> R * R) (x y : R) (i : nat) (data : list value)
  : option (list (R * R * value)) :=
  match data with
  | [] => Some []
  | v :: r =>
      if kerning && Nat.odd i then
        match v with
        | Num (Some k) => path_loop kerning spaced advance (x + k) y (S i) r
        | Num None => path_loop kerning spaced advance x y (S i) r
        | _ => None
        end
      else
        match v with
        | Num _ => None
        | _ =>
            let x := if (0 <? i)%nat then x + spaced else x in
            ocons [(x, y, v)] (path_loop kerning spaced advance (x + fst (advance v)) (y + snd (advance v)) (S i) r)
        end
  end.
Definition textpath (kern : string -> string -> option R) (advance : value -> R * R) (t : text) : option (list (R * R * value)) :=
  path_loop (kerning t) (spaced_pt t) advance (x_pt t) (y_pt t) 0 (data kern (size_pt t / 1000) t).

(** ** bounding box *)

Definition rsum (l : list R) : R := fold_right Rplus 0 l.

(** l.479-483: the sum of the odd entries *)
Fixpoint kernings (i : nat) (data : list value) : R :=
  match data with
  | [] => 0
  | v :: r => (if Nat.odd i then match v with Num (Some k) => k | _ => 0 end else 0) + kernings (S i) r
  end.

(** the left and right side of the bounding box of a text with metric, l.475-487, with
    AFMfile.width_pt (afmfile.py l.1379-1380) *)
Definition box_sides (kern : string -> string -> option R) (width : string -> R) (t : text) : R * R :=
  let kerning_correction := if kerning t then kernings 0 (resolvekernings kern (size_pt t / 1000) (glyphnames t)) else 0 in
  (x_pt t,
   x_pt t + rsum (map width (glyphnames t)) * size_pt t / 1000 + (INR (length (glyphnames t)) - 1) * spaced_pt t + kerning_correction).
