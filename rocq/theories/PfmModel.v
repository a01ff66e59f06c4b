(** Model of pyx/font/pfmfile.py: the reading of PFM files (PFMfile.__init__, l.266-346), widths (l.348-352), kernings (l.366-377) and the flags of the PDF font info
    (l.379-390).  Files are lists of bytes; reading after the end gives fewer bytes, which struct.unpack refuses (None, as all exceptions).  Names of glyphs are strings. *)
From Coq Require Import ZArith List Bool String Ascii Lia.
Import ListNotations.
Open Scope Z_scope.

(** ** struct.unpack with little endian formats *)
(** the codes B, H, h, L and ns *)
Inductive fmt := FB | FH | Fh | FL | Fs (n : nat).
Definition fsize (f : fmt) : nat := match f with FB => 1 | FH | Fh => 2 | FL => 4 | Fs n => n end.
Fixpoint le (l : list Z) : Z := match l with [] => 0 | b :: r => b + 256 * le r end.
(** the value of a number read by struct.unpack (l.276, 280, 312, 319, 324, 328, 334, 339); of a string ns only the bytes are kept elsewhere, here it is 0 *)
Definition value (f : fmt) (l : list Z) : Z :=
  match f with Fh => let v := le l in if v <? 32768 then v else v - 65536 | Fs _ => 0 | _ => le l end.
Fixpoint unpack (fs : list fmt) (l : list Z) : option (list Z) :=
  match fs with
  | [] => match l with [] => Some [] | _ => None end
  | f :: r => if Nat.ltb (List.length l) (fsize f) then None
              else match unpack r (skipn (fsize f) l) with Some vs => Some (value f (firstn (fsize f) l) :: vs) | None => None end
  end.
(** file.seek(pos) and file.read(n), with struct.unpack *)
Definition read_at (file : list Z) (pos : Z) (fs : list fmt) : option (list Z) :=
  unpack fs (firstn (fold_right (fun f n => (fsize f + n)%nat) O fs) (skipn (Z.to_nat pos) file)).
Fixpoint copies {A} (n : nat) (a : list A) : list A := match n with O => [] | S m => a ++ copies m a end.
(** _readNullString, l.255-261, after a seek *)
Fixpoint until_null (l : list Z) : list Z := match l with [] => [] | b :: r => if b =? 0 then [] else b :: until_null r end.
Definition null_string (file : list Z) (pos : Z) : list Z := until_null (skipn (Z.to_nat pos) file).
(** bytes.lower and the comparison l.285 *)
Definition lower (b : Z) : Z := if (65 <=? b) && (b <=? 90) then b + 32 else b.
Definition postscript : list Z := [112; 111; 115; 116; 115; 99; 114; 105; 112; 116].
Fixpoint eqb_list (a b : list Z) : bool := match a, b with [], [] => true | x :: r, y :: s => (x =? y) && eqb_list r s | _, _ => false end.

(** the attributes which are used later *)
Record pfm := mkpfm { p_first : Z; p_last : Z; p_widths : list Z; p_kernpairs : list (Z * Z * Z); p_trackkerns : list (list Z); p_charset : Z;
  p_ascent : Z; p_italic : Z; p_weight : Z; p_avgwidth : Z; p_maxwidth : Z; p_lowercasedescent : Z; p_capheight : Z; p_slant : Z;
  p_glyphs : list (string * Z) }.
(** the formats l.276 and l.280 *)
Definition header : list fmt := [FH; FL; Fs 60] ++ repeat FH 7 ++ repeat FB 3 ++ [FH; FB] ++ repeat FH 2 ++ [FB] ++ repeat FH 2 ++ repeat FB 4 ++ [FH] ++ repeat FL 4.
Definition extension : list fmt := FH :: repeat FL 7.
(** the format l.312 *)
Definition metrics : list fmt := repeat Fh 24 ++ repeat FH 2.
Definition bind {A B} (o : option A) (f : A -> option B) : option B := match o with Some a => f a | None => None end.
(** l.320-330: the kerning pairs *)
Fixpoint triples (l : list Z) : list (Z * Z * Z) := match l with a :: b :: c :: r => (a, b, c) :: triples r | _ => [] end.
Definition kernpairs (file : list Z) (table count : Z) : option (list (Z * Z * Z)) :=
  if table =? 0 then Some []
  else bind (read_at file table [FH]) (fun l =>
       if negb (nth 0 l 0 =? count) then None
       else bind (read_at file (table + 2) (copies (Z.to_nat count) [FB; FB; Fh])) (fun l => Some (triples l))).
(** l.331-339: the track kernings *)
Fixpoint fives (n : nat) (l : list Z) : list (list Z) := match n with O => [] | S m => firstn 5 l :: fives m (skipn 5 l) end.
Definition trackkerns (file : list Z) (table count : Z) : option (list (list Z)) :=
  if table =? 0 then Some []
  else bind (read_at file table [FH]) (fun l =>
       if negb (nth 0 l 0 =? count) then None
       else bind (read_at file (table + 2) (copies (Z.to_nat count) (repeat Fh 5))) (fun l => Some (fives (Z.to_nat count) l))).
(** the dictionary ansiglyphs, l.26-249: the items in their order; of equal keys the last one counts *)
Definition ansiglyphs : list (string * Z) :=
  ([
   ("space", 32); ("exclam", 33); ("quotedbl", 34); ("numbersign", 35); ("dollar", 36); ("percent", 37); ("ampersand", 38); ("quotesingle", 39);
   ("parenleft", 40); ("parenright", 41); ("asterisk", 42); ("plus", 43); ("comma", 44); ("hyphen", 45); ("period", 46); ("slash", 47); ("zero", 48);
   ("one", 49); ("two", 50); ("three", 51); ("four", 52); ("five", 53); ("six", 54); ("seven", 55); ("eight", 56); ("nine", 57); ("colon", 58);
   ("semicolon", 59); ("less", 60); ("equal", 61); ("greater", 62); ("question", 63); ("at", 64); ("A", 65); ("B", 66); ("C", 67); ("D", 68); ("E", 69);
   ("F", 70); ("G", 71); ("H", 72); ("I", 73); ("J", 74); ("K", 75); ("L", 76); ("M", 77); ("N", 78); ("O", 79); ("P", 80); ("Q", 81); ("R", 82); ("S", 83);
   ("T", 84); ("U", 85); ("V", 86); ("W", 87); ("X", 88); ("Y", 89); ("Z", 90); ("bracketleft", 91); ("backslash", 92); ("bracketright", 93);
   ("asciicircum", 94); ("underscore", 95); ("grave", 96); ("a", 97); ("b", 98); ("c", 99); ("d", 100); ("e", 101); ("f", 102); ("g", 103); ("h", 104);
   ("i", 105); ("j", 106); ("k", 107); ("l", 108); ("m", 109); ("n", 110); ("o", 111); ("p", 112); ("q", 113); ("r", 114); ("s", 115); ("t", 116); ("u", 117);
   ("v", 118); ("w", 119); ("x", 120); ("y", 121); ("z", 122); ("braceleft", 123); ("bar", 124); ("braceright", 125); ("asciitilde", 126); ("bullet", 127);
   ("Euro", 128); ("bullet", 129); ("quotesinglbase", 130); ("florin", 131); ("quotedblbase", 132); ("ellipsis", 133); ("dagger", 134); ("daggerdbl", 135);
   ("circumflex", 136); ("perthousand", 137); ("Scaron", 138); ("guilsinglleft", 139); ("OE", 140); ("bullet", 141); ("Zcaron", 142); ("bullet", 143);
   ("bullet", 144); ("quoteleft", 145); ("quoteright", 146); ("quotedblleft", 147); ("quotedblright", 148); ("bullet", 149); ("endash", 150); ("emdash", 151);
   ("tilde", 152); ("trademark", 153); ("scaron", 154); ("guilsinglright", 155); ("oe", 156); ("bullet", 157); ("zcaron", 158); ("Ydieresis", 159);
   ("space", 160); ("exclamdown", 161); ("cent", 162); ("sterling", 163); ("currency", 164); ("yen", 165); ("brokenbar", 166); ("section", 167);
   ("dieresis", 168); ("copyright", 169); ("ordfeminine", 170); ("guillemotleft", 171); ("logicalnot", 172); ("hyphen", 173); ("registered", 174);
   ("macron", 175); ("degree", 176); ("plusminus", 177); ("twosuperior", 178); ("threesuperior", 179); ("acute", 180); ("mu", 181); ("paragraph", 182);
   ("periodcentered", 183); ("cedilla", 184); ("onesuperior", 185); ("ordmasculine", 186); ("guillemotright", 187); ("onequarter", 188); ("onehalf", 189);
   ("threequarters", 190); ("questiondown", 191); ("Agrave", 192); ("Aacute", 193); ("Acircumflex", 194); ("Atilde", 195); ("Adieresis", 196); ("Aring", 197);
   ("AE", 198); ("Ccedilla", 199); ("Egrave", 200); ("Eacute", 201); ("Ecircumflex", 202); ("Edieresis", 203); ("Igrave", 204); ("Iacute", 205);
   ("Icircumflex", 206); ("Idieresis", 207); ("Eth", 208); ("Ntilde", 209); ("Ograve", 210); ("Oacute", 211); ("Ocircumflex", 212); ("Otilde", 213);
   ("Odieresis", 214); ("multiply", 215); ("Oslash", 216); ("Ugrave", 217); ("Uacute", 218); ("Ucircumflex", 219); ("Udieresis", 220); ("Yacute", 221);
   ("Thorn", 222); ("germandbls", 223); ("agrave", 224); ("aacute", 225); ("acircumflex", 226); ("atilde", 227); ("adieresis", 228); ("aring", 229);
   ("ae", 230); ("ccedilla", 231); ("egrave", 232); ("eacute", 233); ("ecircumflex", 234); ("edieresis", 235); ("igrave", 236); ("iacute", 237);
   ("icircumflex", 238); ("idieresis", 239); ("eth", 240); ("ntilde", 241); ("ograve", 242); ("oacute", 243); ("ocircumflex", 244); ("otilde", 245);
   ("odieresis", 246); ("divide", 247); ("oslash", 248); ("ugrave", 249); ("uacute", 250); ("ucircumflex", 251); ("udieresis", 252); ("yacute", 253);
   ("thorn", 254); ("ydieresis", 255)])%string.
(** a dictionary made from its items: the last item counts *)
Fixpoint dict_get (l : list (string * Z)) (g : string) : option Z :=
  match l with [] => None | (k, v) :: r => match dict_get r g with Some w => Some w | None => if String.eqb k g then Some v else None end end.
(** l.340-345: with a charset the glyphs are numbered as in the encoding of the font (None: no glyph); enumerate counts from 0 *)
Fixpoint encoded (i : Z) (enc : list (option string)) : list (string * Z) :=
  match enc with [] => [] | Some g :: r => (g, i) :: encoded (i + 1) r | None :: r => encoded (i + 1) r end.
(** PFMfile.__init__, l.266-346; [enc] is t1file.encoding *)
Definition read_pfm (enc : list (option string)) (file : list Z) : option pfm :=
  bind (unpack header (firstn 117 file)) (fun h =>
  bind (unpack extension (firstn 30 (skipn 117 file))) (fun x =>
  let df i := nth i h 0 in let dx i := nth i x 0 in
  let device := df 25%nat in let face := df 26%nat in
  let ext := dx 1%nat in let extent := dx 2%nat in let origin := dx 3%nat in let pair := dx 4%nat in let track := dx 5%nat in let driver := dx 6%nat in
  if device =? 0 then None
  else if negb (eqb_list (map lower (null_string file device)) postscript) then None
  else if negb (df 0%nat =? 256) then None
  else if negb (df 3%nat =? 129) then None
  else if face =? 0 then None
  else if ext =? 0 then None
  else if extent =? 0 then None
  else if negb (origin =? 0) then None
  else if driver =? 0 then None
  else
    bind (read_at file ext metrics) (fun m =>
    let etm i := nth i m 0 in
    let first := df 20%nat in let last := df 21%nat in
    (* a negative count would give the format of a negative number, an error *)
    if last - first + 1 <? 0 then None else
    bind (read_at file extent (repeat FH (Z.to_nat (last - first + 1)))) (fun widths =>
    bind (kernpairs file pair (etm 24%nat)) (fun pairs =>
    bind (trackkerns file track (etm 25%nat)) (fun tracks =>
    let charset := df 14%nat in
    Some (mkpfm first last widths pairs tracks charset (df 7%nat) (df 10%nat) (df 13%nat) (df 18%nat) (df 19%nat) (etm 10%nat) (etm 7%nat) (etm 11%nat)
           (if charset =? 0 then ansiglyphs else encoded 0 enc)))))))).

(** ** access *)
(** indexing of a tuple in Python, with negative numbers from the end *)
Definition py_index (l : list Z) (i : Z) : option Z :=
  if 0 <=? i then nth_error l (Z.to_nat i) else if - Z.of_nat (List.length l) <=? i then nth_error l (Z.to_nat (i + Z.of_nat (List.length l))) else None.
(** width_ds, l.348-349 *)
Definition width_ds (p : pfm) (g : string) : option Z := bind (dict_get (p_glyphs p) g) (fun c => py_index (p_widths p) (c - p_first p)).
(** self.kernpairsdict, l.330: of equal keys the last one counts *)
Fixpoint kern (l : list (Z * Z * Z)) (a b : Z) : option Z :=
  match l with [] => None | (x, y, k) :: r => match kern r a b with Some v => Some v | None => if (x =? a) && (y =? b) then Some k else None end end.
(** resolvekernings, l.366-377 (which replaces l.360-364), without a size: the glyphs with the kernings between them; an amount 0 is no kerning *)
Fixpoint resolve (p : pfm) (before : option Z) (gs : list string) : option (list (option Z)) :=
  match gs with
  | [] => Some []
  | g :: r =>
      match before with
      | None => match r with [] => Some [] | _ => bind (dict_get (p_glyphs p) g) (fun c => resolve p (Some c) r) end
      | Some b =>
          bind (dict_get (p_glyphs p) g) (fun c =>
          bind (resolve p (Some c) r) (fun rest => Some ((match kern (p_kernpairs p) b c with Some k => if k =? 0 then None else Some k | None => None end) :: rest)))
      end
  end.
Definition resolvekernings (p : pfm) (gs : list string) : option (list (option Z)) := resolve p None gs.
(** the flags of writePDFfontinfo, l.379-390 *)
Definition flags (p : pfm) (serif symbol : bool) : Z :=
  (if p_maxwidth p =? p_avgwidth p then Z.shiftl 1 0 else 0) + (if serif then Z.shiftl 1 1 else 0) + (if symbol then Z.shiftl 1 2 else Z.shiftl 1 5) +
  (if p_italic p =? 0 then 0 else Z.shiftl 1 6).
