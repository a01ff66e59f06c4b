(** The reading of texts in SVG files, pyx/svgfile.py: numbers with units (l.86, l.97-128), flags (l.87, l.139-143), path data (l.88, l.145-153, l.222-230),
    lists of transformations (l.243-281) and colors (l.89-90, l.283-346, with color.py l.173-179).  What is done with the numbers is modelled in SvgInModel.v and SvgFileModel.v.
    A text is a list of code points.  Floats are rational numbers.  Letters whose lower or upper case is not ASCII (the long s for s) are not taken for the ASCII letter by
    the patterns with re.IGNORECASE. *)
From Coq Require Import Ascii String ZArith QArith List Bool.
Import ListNotations.
Open Scope Z_scope.

Definition text := list Z.
(** the code points of a literal of the source *)
Definition codes (s : string) : text := map (fun c => Z.of_nat (nat_of_ascii c)) (list_ascii_of_string s).
(** the characters of [0-9] *)
Definition digit (c : Z) : bool := (48 <=? c) && (c <=? 57).
(** the characters of \s, which are those of str.strip *)
Definition isspace (c : Z) : bool :=
  ((9 <=? c) && (c <=? 13)) || ((28 <=? c) && (c <=? 32)) || existsb (Z.eqb c) [133; 160; 5760; 8232; 8233; 8239; 8287; 12288] || ((8192 <=? c) && (c <=? 8202)).
Definition lower (c : Z) : Z := if (65 <=? c) && (c <=? 90) then c + 32 else c.
Definition bind {A B} (o : option A) (f : A -> option B) : option B := match o with Some a => f a | None => None end.
(** the longest start of characters of a class, and the rest *)
Fixpoint span (p : Z -> bool) (s : text) : text * text :=
  match s with c :: r => if p c then let '(a, b) := span p r in (c :: a, b) else ([], s) | [] => ([], []) end.
(** a single character, and the rest *)
Definition expect (c : Z) (s : text) : option text := match s with d :: r => if c =? d then Some r else None | [] => None end.
(** int of digits *)
Definition int_of (s : text) : Z := fold_left (fun a c => 10 * a + (c - 48)) s 0.

(** ** numbers *)
(** [-+]?: whether there is a minus, and the rest *)
Definition sign (s : text) : bool * text := match s with c :: r => if c =? 45 then (true, r) else if c =? 43 then (false, r) else (false, s) | [] => (false, []) end.
(** ([eE][-+]?[0-9]+)?: the exponent and the rest *)
Definition exponent (s : text) : Z * text :=
  match s with
  | c :: r => if (c =? 101) || (c =? 69) then
      let '(neg, r) := sign r in
      match span digit r with ([], _) => (0, s) | (ds, r) => (if neg then - int_of ds else int_of ds, r) end
      else (0, s)
  | [] => (0, s)
  end.
(** [-+]?[0-9]*\.?[0-9]+ and the exponent, l.86: float of the group value and the rest, None if there is no match.  A point without a digit after it is not
    part of the match. *)
Definition number (s : text) : option (Q * text) :=
  let '(neg, r) := sign s in
  let '(ds, r) := span digit r in
  let mantissa := match expect 46 r with Some r' => match span digit r' with ([], _) => None | (fs, r') => Some (fs, r') end | None => None end in
  let value fs r := let '(e, r) := exponent r in
    (inject_Z ((if neg then -1 else 1) * int_of (ds ++ fs)) * Qpower 10 (e - Z.of_nat (List.length fs)), r)%Q in
  match mantissa, ds with
  | Some (fs, r'), _ => Some (value fs r')
  | None, [] => None
  | None, _ => Some (value [] r)
  end.
Inductive sunit := NoUnit | Px | Pt | Pc | Mm | Cm | Inch | Percent.
(** (px|pt|pc|mm|cm|in|%)? *)
Definition unit_of (s : text) : sunit * text :=
  match s with
  | 112 :: 120 :: r => (Px, r) | 112 :: 116 :: r => (Pt, r) | 112 :: 99 :: r => (Pc, r) | 109 :: 109 :: r => (Mm, r)
  | 99 :: 109 :: r => (Cm, r) | 105 :: 110 :: r => (Inch, r) | 37 :: r => (Percent, r) | _ => (NoUnit, s)
  end.
Definition skip_space (s : text) : text := snd (span isspace s).
(** \s*,?\s* *)
Definition separator (s : text) : text := match expect 44 (skip_space s) with Some r => skip_space r | None => skip_space s end.
(** self.units, l.97-103 *)
Definition unit_pt (res : Q) (u : sunit) : Q :=
  match u with NoUnit | Px => 72 / res | Pt => 1 | Pc => 12 | Mm => 720 # 254 | Cm => 7200 # 254 | Inch => 72 | Percent => 0 end%Q.
(** toFloat without relative, l.105-123: the value and the rest; None is svgValueError *)
Definition to_float (res : Q) (units : bool) (s : text) : option (Q * text) :=
  bind (number s) (fun '(v, r) =>
  let '(u, r) := unit_of r in
  match u, units with
  | Percent, _ => None
  | NoUnit, false => Some (v, separator r)
  | _, false => None
  | _, true => Some ((v * unit_pt res u)%Q, separator r)
  end).
(** with single=True, l.119-122 *)
Definition to_single (res : Q) (units : bool) (s : text) : option Q := bind (to_float res units s) (fun '(v, r) => match r with [] => Some v | _ => None end).
(** toFloats, l.125-128: the numbers and whether svgValueError is raised after them.  Each number takes at least a character, so the length of the text is enough fuel. *)
Fixpoint floats_loop (res : Q) (units : bool) (fuel : nat) (s : text) : list Q * bool :=
  match fuel, s with
  | S fuel, _ :: _ => match to_float res units s with Some (v, r) => let '(l, bad) := floats_loop res units fuel r in (v :: l, bad) | None => ([], true) end
  | _, _ => ([], false)
  end.
Definition to_floats (res : Q) (units : bool) (s : text) : list Q * bool := floats_loop res units (List.length s) s.
(** toBool, l.139-143 *)
Definition to_bool (s : text) : option (bool * text) := match s with 49 :: r => Some (true, separator r) | 48 :: r => Some (false, separator r) | _ => None end.

(** ** path data *)
(** [mlhvcsqtaz] with re.IGNORECASE *)
Definition is_cmd (c : Z) : bool := existsb (Z.eqb (lower c)) (codes "mlhvcsqtaz").
(** (([^mlhvcsqtaz]|pt|pc|mm|cm)* ), l.88: the alternatives pt and pc begin with p, which the first alternative has taken; the group never gives anything back since nothing follows it *)
Fixpoint take_args (s : text) : text * text :=
  match s with
  | [] => ([], [])
  | c :: r =>
      if negb (is_cmd c) then let '(a, b) := take_args r in (c :: a, b)
      else match r with
      | d :: r' => if ((lower c =? 109) || (lower c =? 99)) && (lower d =? 109) then let '(a, b) := take_args r' in (c :: d :: a, b) else ([], s)
      | [] => ([], s)
      end
  end.
(** the matches of finditer, l.148: characters before a command are skipped *)
Fixpoint commands (fuel : nat) (s : text) : list (Z * text) :=
  match fuel, s with
  | S fuel, c :: r => if is_cmd c then let '(a, b) := take_args (skip_space r) in (c, a) :: commands fuel b else commands fuel r
  | _, _ => []
  end.
(** the arguments of arcs, l.224-230: those before an svgValueError.  The angle is read like a length. *)
Definition arc := (Q * Q * Q * bool * bool * (Q * Q))%type.
Fixpoint arcs_loop (res : Q) (fuel : nat) (s : text) : list arc * bool :=
  match fuel, s with
  | S fuel, _ :: _ =>
      match bind (to_float res true s) (fun '(rx, s) => bind (to_float res true s) (fun '(ry, s) => bind (to_float res true s) (fun '(phi, s) =>
            bind (to_bool s) (fun '(fa, s) => bind (to_bool s) (fun '(fs, s) => bind (to_float res true s) (fun '(x, s) => bind (to_float res true s) (fun '(y, s) =>
            Some ((rx, ry, phi, fa, fs, (x, y)), s)))))))) with
      | Some (a, s) => let '(l, bad) := arcs_loop res fuel s in (a :: l, bad)
      | None => ([], true)
      end
  | _, _ => ([], false)
  end.
(** a command with its numbers, and whether there is an svgValueError after them *)
Inductive command := Cmd (c : Z) (args : list Q) (bad : bool) | CmdA (c : Z) (args : list arc) (bad : bool).
(** l.148-153 *)
Definition path_commands (res : Q) (s : text) : list command :=
  map (fun '(c, a) => if lower c =? 97 then let '(l, bad) := arcs_loop res (List.length a) a in CmdA c l bad else let '(l, bad) := to_floats res true a in Cmd c l bad)
      (commands (List.length s) s).

(** ** lists of transformations *)
Inductive transform := Matrix (a b c d e f : Q) | Translate (x : Q) (y : option Q) | Scale (x : Q) (y : option Q) | Rotate (a : Q) (center : option (Q * Q)) | SkewX (a : Q) | SkewY (a : Q).
(** the rest behind a given start *)
Fixpoint behind (k s : text) : option text :=
  match k, s with [], _ => Some s | a :: k, b :: s => if a =? b then behind k s else None | _, [] => None end.
(** \((?P<args>[^)]* )\) *)
Definition in_parens (s : text) : option (text * text) :=
  match s with 40 :: r => match span (fun c => negb (c =? 41)) r with (a, 41 :: b) => Some (a, b) | _ => None end | _ => None end.
(** the words of l.245, with the reading of the arguments, l.248-280; None is an exception (svgValueError or an assertion) *)
Inductive word := WMatrix | WTranslate | WScale | WRotate | WSkewX | WSkewY.
Definition words : list (string * word) := [("matrix", WMatrix); ("translate", WTranslate); ("scale", WScale); ("rotate", WRotate); ("skewX", WSkewX); ("skewY", WSkewY)]%string.
Definition read_transform (res : Q) (w : word) (args : text) : option transform :=
  match w with
  | WMatrix => bind (to_float res false args) (fun '(a, s) => bind (to_float res false s) (fun '(b, s) => bind (to_float res false s) (fun '(c, s) => bind (to_float res false s) (fun '(d, s) =>
      bind (to_float res true s) (fun '(e, s) => bind (to_single res true s) (fun f => Some (Matrix a b c d e f)))))))
  | WTranslate => match to_floats res true args with ([x], false) => Some (Translate x None) | ([x; y], false) => Some (Translate x (Some y)) | _ => None end
  | WScale => match to_floats res false args with ([x], false) => Some (Scale x None) | ([x; y], false) => Some (Scale x (Some y)) | _ => None end
  | WRotate => bind (to_float res false args) (fun '(a, s) => match s with [] => Some (Rotate a None) | _ => bind (to_float res true s) (fun '(b, s) => bind (to_single res true s) (fun c => Some (Rotate a (Some (b, c))))) end)
  | WSkewX => option_map SkewX (to_single res false args)
  | WSkewY => option_map SkewY (to_single res false args)
  end.
(** a match at the start of a text: the first word that is there, with parentheses behind it *)
Fixpoint match_word (l : list (string * word)) (s : text) : option (word * text * text) :=
  match l with
  | [] => None
  | (k, w) :: l => match bind (behind (codes k) s) in_parens with Some (a, r) => Some (w, a, r) | None => match_word l s end
  end.
(** re.finditer, l.245: what is between the matches is skipped *)
Fixpoint word_matches (fuel : nat) (s : text) : list (word * text) :=
  match fuel, s with
  | S fuel, _ :: r => match match_word words s with Some (w, a, r) => (w, a) :: word_matches fuel r | None => word_matches fuel r end
  | _, _ => []
  end.
Fixpoint sequence {A} (l : list (option A)) : option (list A) := match l with [] => Some [] | o :: r => bind o (fun a => bind (sequence r) (fun r => Some (a :: r))) end.
(** the transformations in the order of the text (the loop l.245 is backwards); None is an exception *)
Definition transforms (res : Q) (s : text) : option (list transform) := sequence (map (fun '(w, a) => read_transform res w a) (word_matches (List.length s) s)).

(** ** colors *)
Definition color := (Q * Q * Q)%type.
Inductive paint := NoPaint | Paint (c : color).
(** color.rgb, color.py l.116-125: values outside of the unit interval are a ValueError *)
Definition new_rgb (r g b : Q) : option paint :=
  let unit (x : Q) := Qle_bool 0 x && Qle_bool x 1 in if unit r && unit g && unit b then Some (Paint (r, g, b)) else None.
(** str.strip *)
Definition strip (s : text) : text := rev (skip_space (rev (skip_space s))).
(** a number of the patterns l.89-90 with the characters before and behind it: \s*[0-9]+ and then % or nothing and \s* *)
Definition component (percent : bool) (s : text) : option (Z * text) :=
  match span digit (skip_space s) with
  | ([], _) => None
  | (ds, r) => bind (if percent then match r with 37 :: r => Some r | _ => None end else Some r) (fun r => Some (int_of ds, skip_space r))
  end.
(** _svgColorAbsPattern and _svgColorRelPattern, l.89-90; $ also matches before a newline at the end, which strip has removed *)
Definition rgb_pattern (percent : bool) (s : text) : option (Z * Z * Z) :=
  match s with
  | r :: g :: b :: s =>
      if (lower r =? 114) && (lower g =? 103) && (lower b =? 98) then
        bind (expect 40 s) (fun s => bind (component percent s) (fun '(red, s) => bind (expect 44 s) (fun s => bind (component percent s) (fun '(green, s) => bind (expect 44 s) (fun s =>
        bind (component percent s) (fun '(blue, s) => match expect 41 s with Some [] => Some (red, green, blue) | _ => None end))))))
      else None
  | _ => None
  end.
(** a digit of binascii.a2b_hex *)
Definition hexdigit (c : Z) : option Z :=
  if digit c then Some (c - 48) else if (97 <=? lower c) && (lower c <=? 102) then Some (lower c - 87) else None.
Definition hexbyte (a b : Z) : option Q := bind (hexdigit a) (fun a => bind (hexdigit b) (fun b => Some (inject_Z (16 * a + b) / 255)%Q)).
(** color.rgbfromhexstring, color.py l.173-179 *)
Definition rgbfromhexstring (s : text) : option paint :=
  match snd (span (Z.eqb 35) (strip s)) with
  | [a; b; c] => bind (hexbyte a a) (fun r => bind (hexbyte b b) (fun g => bind (hexbyte c c) (fun b => new_rgb r g b)))
  | [a; a'; b; b'; c; c'] => bind (hexbyte a a') (fun r => bind (hexbyte b b') (fun g => bind (hexbyte c c') (fun b => new_rgb r g b)))
  | _ => None
  end.
(** the dictionary names, l.290-338 *)
Definition names : list (string * string) := [
  ("aliceblue", "rgb(240, 248, 255)"); ("antiquewhite", "rgb(250, 235, 215)"); ("aqua", "rgb( 0, 255, 255)"); ("aquamarine", "rgb(127, 255, 212)");
  ("azure", "rgb(240, 255, 255)"); ("beige", "rgb(245, 245, 220)"); ("bisque", "rgb(255, 228, 196)"); ("black", "rgb( 0, 0, 0)");
  ("blanchedalmond", "rgb(255, 235, 205)"); ("blue", "rgb( 0, 0, 255)"); ("blueviolet", "rgb(138, 43, 226)"); ("brown", "rgb(165, 42, 42)");
  ("burlywood", "rgb(222, 184, 135)"); ("cadetblue", "rgb( 95, 158, 160)"); ("chartreuse", "rgb(127, 255, 0)"); ("chocolate", "rgb(210, 105, 30)");
  ("coral", "rgb(255, 127, 80)"); ("cornflowerblue", "rgb(100, 149, 237)"); ("cornsilk", "rgb(255, 248, 220)"); ("crimson", "rgb(220, 20, 60)");
  ("cyan", "rgb( 0, 255, 255)"); ("darkblue", "rgb( 0, 0, 139)"); ("darkcyan", "rgb( 0, 139, 139)"); ("darkgoldenrod", "rgb(184, 134, 11)");
  ("darkgray", "rgb(169, 169, 169)"); ("darkgreen", "rgb( 0, 100, 0)"); ("darkgrey", "rgb(169, 169, 169)"); ("darkkhaki", "rgb(189, 183, 107)");
  ("darkmagenta", "rgb(139, 0, 139)"); ("darkolivegreen", "rgb( 85, 107, 47)"); ("darkorange", "rgb(255, 140, 0)");
  ("darkorchid", "rgb(153, 50, 204)"); ("darkred", "rgb(139, 0, 0)"); ("darksalmon", "rgb(233, 150, 122)"); ("darkseagreen", "rgb(143, 188, 143)");
  ("darkslateblue", "rgb( 72, 61, 139)"); ("darkslategray", "rgb( 47, 79, 79)"); ("darkslategrey", "rgb( 47, 79, 79)");
  ("darkturquoise", "rgb( 0, 206, 209)"); ("darkviolet", "rgb(148, 0, 211)"); ("deeppink", "rgb(255, 20, 147)"); ("deepskyblue", "rgb( 0, 191, 255)");
  ("dimgray", "rgb(105, 105, 105)"); ("dimgrey", "rgb(105, 105, 105)"); ("dodgerblue", "rgb( 30, 144, 255)"); ("firebrick", "rgb(178, 34, 34)");
  ("floralwhite", "rgb(255, 250, 240)"); ("forestgreen", "rgb( 34, 139, 34)"); ("fuchsia", "rgb(255, 0, 255)"); ("gainsboro", "rgb(220, 220, 220)");
  ("ghostwhite", "rgb(248, 248, 255)"); ("gold", "rgb(255, 215, 0)"); ("goldenrod", "rgb(218, 165, 32)"); ("gray", "rgb(128, 128, 128)");
  ("grey", "rgb(128, 128, 128)"); ("green", "rgb( 0, 128, 0)"); ("greenyellow", "rgb(173, 255, 47)"); ("honeydew", "rgb(240, 255, 240)");
  ("hotpink", "rgb(255, 105, 180)"); ("indianred", "rgb(205, 92, 92)"); ("indigo", "rgb( 75, 0, 130)"); ("ivory", "rgb(255, 255, 240)");
  ("khaki", "rgb(240, 230, 140)"); ("lavender", "rgb(230, 230, 250)"); ("lavenderblush", "rgb(255, 240, 245)"); ("lawngreen", "rgb(124, 252, 0)");
  ("lemonchiffon", "rgb(255, 250, 205)"); ("lightblue", "rgb(173, 216, 230)"); ("lightcoral", "rgb(240, 128, 128)");
  ("lightcyan", "rgb(224, 255, 255)"); ("lightgoldenrodyellow", "rgb(250, 250, 210)"); ("lightgray", "rgb(211, 211, 211)");
  ("lightgreen", "rgb(144, 238, 144)"); ("lightgrey", "rgb(211, 211, 211)"); ("lightpink", "rgb(255, 182, 193)");
  ("lightsalmon", "rgb(255, 160, 122)"); ("lightseagreen", "rgb( 32, 178, 170)"); ("lightskyblue", "rgb(135, 206, 250)");
  ("lightslategray", "rgb(119, 136, 153)"); ("lightslategrey", "rgb(119, 136, 153)"); ("lightsteelblue", "rgb(176, 196, 222)");
  ("lightyellow", "rgb(255, 255, 224)"); ("lime", "rgb( 0, 255, 0)"); ("limegreen", "rgb( 50, 205, 50)"); ("linen", "rgb(250, 240, 230)");
  ("magenta", "rgb(255, 0, 255)"); ("maroon", "rgb(128, 0, 0)"); ("mediumaquamarine", "rgb(102, 205, 170)"); ("mediumblue", "rgb( 0, 0, 205)");
  ("mediumorchid", "rgb(186, 85, 211)"); ("mediumpurple", "rgb(147, 112, 219)"); ("mediumseagreen", "rgb( 60, 179, 113)");
  ("mediumslateblue", "rgb(123, 104, 238)"); ("mediumspringgreen", "rgb( 0, 250, 154)"); ("mediumturquoise", "rgb( 72, 209, 204)");
  ("mediumvioletred", "rgb(199, 21, 133)"); ("midnightblue", "rgb( 25, 25, 112)"); ("mintcream", "rgb(245, 255, 250)");
  ("mistyrose", "rgb(255, 228, 225)"); ("moccasin", "rgb(255, 228, 181)"); ("navajowhite", "rgb(255, 222, 173)"); ("navy", "rgb( 0, 0, 128)");
  ("oldlace", "rgb(253, 245, 230)"); ("olive", "rgb(128, 128, 0)"); ("olivedrab", "rgb(107, 142, 35)"); ("orange", "rgb(255, 165, 0)");
  ("orangered", "rgb(255, 69, 0)"); ("orchid", "rgb(218, 112, 214)"); ("palegoldenrod", "rgb(238, 232, 170)"); ("palegreen", "rgb(152, 251, 152)");
  ("paleturquoise", "rgb(175, 238, 238)"); ("palevioletred", "rgb(219, 112, 147)"); ("papayawhip", "rgb(255, 239, 213)");
  ("peachpuff", "rgb(255, 218, 185)"); ("peru", "rgb(205, 133, 63)"); ("pink", "rgb(255, 192, 203)"); ("plum", "rgb(221, 160, 221)");
  ("powderblue", "rgb(176, 224, 230)"); ("purple", "rgb(128, 0, 128)"); ("red", "rgb(255, 0, 0)"); ("rosybrown", "rgb(188, 143, 143)");
  ("royalblue", "rgb( 65, 105, 225)"); ("saddlebrown", "rgb(139, 69, 19)"); ("salmon", "rgb(250, 128, 114)"); ("sandybrown", "rgb(244, 164, 96)");
  ("seagreen", "rgb( 46, 139, 87)"); ("seashell", "rgb(255, 245, 238)"); ("sienna", "rgb(160, 82, 45)"); ("silver", "rgb(192, 192, 192)");
  ("skyblue", "rgb(135, 206, 235)"); ("slateblue", "rgb(106, 90, 205)"); ("slategray", "rgb(112, 128, 144)"); ("slategrey", "rgb(112, 128, 144)");
  ("snow", "rgb(255, 250, 250)"); ("springgreen", "rgb( 0, 255, 127)"); ("steelblue", "rgb( 70, 130, 180)"); ("tan", "rgb(210, 180, 140)");
  ("teal", "rgb( 0, 128, 128)"); ("thistle", "rgb(216, 191, 216)"); ("tomato", "rgb(255, 99, 71)"); ("turquoise", "rgb( 64, 224, 208)");
  ("violet", "rgb(238, 130, 238)"); ("wheat", "rgb(245, 222, 179)"); ("white", "rgb(255, 255, 255)"); ("whitesmoke", "rgb(245, 245, 245)");
  ("yellow", "rgb(255, 255, 0)"); ("yellowgreen", "rgb(154, 205, 50)")]%string.
Fixpoint eqtext (a b : text) : bool := match a, b with [], [] => true | x :: a, y :: b => (x =? y) && eqtext a b | _, _ => false end.
(** toColor, l.283-346; None is an exception *)
Definition to_color (name : text) (inherit : paint) : option paint :=
  if eqtext name (codes "currentColor") then Some NoPaint else if eqtext name (codes "inherit") then Some inherit else if eqtext name (codes "none") then Some NoPaint else
  let name := match find (fun p => eqtext (codes (fst p)) name) names with Some p => codes (snd p) | None => name end in
  match rgb_pattern false (strip name) with
  | Some (r, g, b) => new_rgb (inject_Z r / 255) (inject_Z g / 255) (inject_Z b / 255)
  | None =>
      match rgb_pattern true (strip name) with
      | Some (r, g, b) => new_rgb (inject_Z r / 100) (inject_Z g / 100) (inject_Z b / 100)
      | None => rgbfromhexstring name
      end
  end.
