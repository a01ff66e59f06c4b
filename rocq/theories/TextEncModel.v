(** Model of the encodings made for text written with fonts: T1text_pt.getencodingname
    (font/font.py l.489-510), the use of the encoding in processPS and processPDF
    (l.554-561, l.571-598, l.611-616, l.669-688), PSreencodefont (l.85-113), PDFencoding
    (l.288-319), the mapping of glyphs to characters of SVG fonts (l.330-394) and
    AFMfile.resolveligatures (font/afmfile.py l.1388-1398). *)
From Coq Require Import ZArith Ascii String List Bool DecimalString.
Import ListNotations.
Local Open Scope Z_scope.

(** a dictionary of glyph names and codes, in the order of the insertions *)
Definition enc := list (string * Z).

(** reading an item of a dictionary; [None] is a KeyError *)
Fixpoint item (g : string) (e : enc) : option Z :=
  match e with
  | [] => None
  | (h, c) :: r => if String.eqb h g then Some c else item g r
  end.

(** setting an item of a dictionary (l.504): an existing key keeps its place *)
Fixpoint set_item {A} (g : string) (c : A) (e : list (string * A)) : list (string * A) :=
  match e with
  | [] => [(g, c)]
  | (h, c') :: r => if String.eqb h g then (h, c) :: r else (h, c') :: set_item g c r
  end.

(** l.497-500: the glyphs not in the encoding; [gs] is the set of glyph names in the
    order in which python iterates over it, which is left open *)
Definition missing (gs : list string) (e : enc) : list string :=
  filter (fun g => match item g e with Some _ => false | None => true end) gs.

(** l.504-505: the missing glyphs get the next codes *)
Definition extend (e : enc) (gs : list string) : enc :=
  fold_left (fun e g => set_item g (Z.of_nat (length e)) e) gs e.

(** l.496-506: the first encoding with enough space is extended; returned are its name
    and all encodings *)
Fixpoint find_encoding (gs : list string) (es : list (string * enc)) : option (string * list (string * enc)) :=
  match es with
  | [] => None
  | (name, e) :: r =>
      if (length (missing gs e) + length e <? 256)%nat then Some (name, (name, extend e (missing gs e)) :: r)
      else match find_encoding gs r with Some (n, r') => Some (n, (name, e) :: r') | None => None end
  end.

(** l.508: encoding and a number in decimal digits *)
Definition decimal (n : nat) : string := NilZero.string_of_uint (Nat.to_uint n).
Definition encoding_name (n : nat) : string := append "encoding" (decimal n).

(** enumerate, l.509 *)
Fixpoint enumerate (k : Z) (gs : list string) : enc :=
  match gs with [] => [] | g :: r => (g, k) :: enumerate (k + 1) r end.

(** getencodingname, l.489-510; [None] is the ValueError of l.494-495 *)
Definition getencodingname (gs : list string) (es : list (string * enc)) : option (string * list (string * enc)) :=
  if (256 <? length gs)%nat then None
  else match find_encoding gs es with
       | Some r => Some r
       | None => let name := encoding_name (length es) in Some (name, set_item name (enumerate 0 gs) es)
       end.

(** the encodings of a writer: for each name of a font its encodings (pswriter.py l.121,
    pdfwriter.py l.373) *)
Definition wencs := list (string * list (string * enc)).
Fixpoint dget {A} (k : string) (d : list (string * A)) : option A :=
  match d with [] => None | (h, a) :: r => if String.eqb h k then Some a else dget k r end.

(** a text: the name of the font, the glyph names in the order of the text and in the
    order in which the set of them is iterated over *)
Record textitem := mktext { tfont : string; tglyphs : list string; tset : list string }.

Fixpoint codes (e : enc) (gs : list string) : option (list Z) :=
  match gs with
  | [] => Some []
  | g :: r => match item g e, codes e r with Some c, Some cs => Some (c :: cs) | _, _ => None end
  end.

(** l.555-556 with l.589-590 (PostScript), l.612-614 (PDF): the encoding is chosen and the
    glyph names are replaced by codes; returned are the name of the font used, the codes
    and the encodings afterwards *)
Definition newfontname (font encname : string) : string := append font (append "-" encname).
Definition write_text (t : textitem) (w : wencs) : option (string * list Z * wencs) :=
  let es := match dget (tfont t) w with Some es => es | None => [] end in
  match getencodingname (tset t) es with
  | None => None
  | Some (name, es') =>
      match dget name es' with
      | None => None
      | Some e =>
          match codes e (tglyphs t) with
          | None => None
          | Some cs => Some (newfontname (tfont t) name, cs, set_item (tfont t) es' w)
          end
      end
  end.

(** all texts of a document one after the other *)
Fixpoint write_texts (ts : list textitem) (w : wencs) : option (list (string * list Z) * wencs) :=
  match ts with
  | [] => Some ([], w)
  | t :: r =>
      match write_text t w with
      | None => None
      | Some (f, cs, w') =>
          match write_texts r w' with
          | None => None
          | Some (o, w'') => Some ((f, cs) :: o, w'')
          end
      end
  end.

(** vector[charcode] = glyphname; [None] is an IndexError *)
Fixpoint set_nth {A} (n : nat) (a : A) (l : list A) : option (list A) :=
  match l, n with
  | [], _ => None
  | _ :: r, O => Some (a :: r)
  | b :: r, S n => match set_nth n a r with Some r' => Some (b :: r') | None => None end
  end.

(** PSreencodefont.output l.101-103 and PDFencoding.getvector l.298-301: the vector of
    glyph names; it is made when the file is written, that is, after all texts *)
Definition vector (e : enc) : option (list (option string)) :=
  fold_left (fun v gc => match v with Some v => set_nth (Z.to_nat (snd gc)) (Some (fst gc)) v | None => None end) e
    (Some (repeat None (length e))).

(** the re-encoded fonts of the document: for each font and encoding the name of the font
    and the vector written to the file *)
Definition fonts (w : wencs) : list (string * option (list (option string))) :=
  flat_map (fun fes => map (fun ne => (newfontname (fst fes) (fst ne), vector (snd ne))) (snd fes)) w.

(** characters of strings: percent 03o for numbers below 512 *)
Definition octal3 (v : Z) : list Z := [48 + v / 64; 48 + v / 8 mod 8; 48 + v mod 8].
(** the characters of l.591 and l.681: parentheses, brackets, less, greater, backslash *)
Definition special (v : Z) : bool :=
  existsb (Z.eqb v) [40; 41; 91; 93; 60; 62; 92].
(** l.591-594 *)
Definition ps_char (v : Z) : list Z :=
  if (32 <? v) && (v <? 127) && negb (special v) then [v] else 92 :: octal3 v.
(** l.681-684 *)
Definition pdf_char (v : Z) : list Z :=
  if (32 <=? v) && (v <=? 127) && negb (special v) then [v] else 92 :: octal3 v.

(** SVGT1mapping, l.322-352: glyph names and codes with the characters (as numbers) of the
    SVG font; [known] is the dictionary of l.326, [ascii_codes] that of l.327 *)
Record svgmap := mksvgmap { sglyphs : enc; scodes : list (Z * Z); nextglyph : Z; nextcode : Z }.
Definition svgmap0 : svgmap := mksvgmap [] [] 983040 1048576.

(** merge_glyphnames, l.336-343 *)
Definition merge_glyph (known : string -> option Z) (m : svgmap) (g : string) : svgmap :=
  match item g (sglyphs m) with
  | Some _ => m
  | None =>
      match known g with
      | Some u => mksvgmap (sglyphs m ++ [(g, u)]) (scodes m) (nextglyph m) (nextcode m)
      | None => mksvgmap (sglyphs m ++ [(g, nextglyph m)]) (scodes m) (nextglyph m + 1) (nextcode m)
      end
  end.

(** merge_charcodes, l.345-352, with the dictionary of l.327 *)
Fixpoint citem (c : Z) (l : list (Z * Z)) : option Z :=
  match l with [] => None | (d, u) :: r => if d =? c then Some u else citem c r end.
Definition ascii_code (c : Z) : option Z := if (32 <=? c) && (c <? 127) then Some c else None.
Definition merge_code (m : svgmap) (c : Z) : svgmap :=
  match citem c (scodes m) with
  | Some _ => m
  | None =>
      match ascii_code c with
      | Some u => mksvgmap (sglyphs m) (scodes m ++ [(c, u)]) (nextglyph m) (nextcode m)
      | None => mksvgmap (sglyphs m) (scodes m ++ [(c, nextcode m)]) (nextglyph m) (nextcode m + 1)
      end
  end.

(** the texts of a font one after the other, each merged into the font of the document
    (l.703-708 with SVGT1file.merge, l.365-373, and svgwriter.py: the resource added first is
    kept) *)
Inductive svgtext := Glyphs (gs : list string) | Codes (cs : list Z).
Definition merge_text (known : string -> option Z) (m : svgmap) (t : svgtext) : svgmap :=
  match t with
  | Glyphs gs => fold_left (merge_glyph known) gs m
  | Codes cs => fold_left merge_code cs m
  end.
Definition merge_texts (known : string -> option Z) (ts : list svgtext) : svgmap :=
  fold_left (merge_text known) ts svgmap0.

(** AFMfile.resolveligatures, afmfile.py l.1388-1398: [ligs] gives the ligatures of a glyph,
    [None] is the KeyError for a glyph without metric. The list and the index are a current
    glyph (index i - 1) and the glyphs after it. *)
Definition ligature (l : list (string * string)) (h : string) : option string :=
  match find (fun p => String.eqb (fst p) h) l with Some p => Some (snd p) | None => None end.
Fixpoint ligatures_from (ligs : string -> option (list (string * string))) (cur : string) (rest : list string)
  : option (list string) :=
  match rest with
  | [] => Some [cur]
  | h :: r =>
      match ligs cur with
      | None => None
      | Some l =>
          match ligature l h with
          | Some rep => ligatures_from ligs rep r
          | None => match ligatures_from ligs h r with Some o => Some (cur :: o) | None => None end
          end
      end
  end.
Definition resolveligatures (ligs : string -> option (list (string * string))) (gs : list string) : option (list string) :=
  match gs with [] => Some [] | g :: r => ligatures_from ligs g r end.
