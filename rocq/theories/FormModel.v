(** Model of pyx/pdfextra.py: flags, strings, sizes, rectangles, default texts and radio buttons of PDF form fields.  Strings are lists of ASCII characters
    (lists of codes, Z); Python's truth of a flag is a bool; exceptions are None. *)
From Coq Require Import ZArith List Bool String Ascii Reals.
From Verif Require Import TrafoModel.
Import ListNotations.

(** ** flags *)
(** PDFannotflags, l.45-46 *)
Definition PDFannotflags : list (string * Z) :=
  ([("invisible", 0); ("hidden", 1); ("printable", 2); ("nozoom", 3); ("norotate", 4); ("noview", 5); ("readonly", 6)]%string)%Z.
(** PDFformflags, l.49-56 *)
Definition PDFformflags : list (string * Z) :=
  ([("readonly", 0); ("required", 1); ("noexport", 2); ("notoggletooff", 14); ("radio", 15); ("pushbutton", 16); ("combo", 17); ("edit", 18); ("sort", 19);
    ("multiselect", 21); ("multiline", 12); ("password", 13); ("fileselect", 20); ("donotspellcheck", 22); ("donotscroll", 23)]%string)%Z.
(** a dictionary of flags (l.141-145): keys are unique, an assignment to an existing key keeps its place *)
Definition flagdict := list (string * bool).
Fixpoint fget (d : flagdict) (k : string) : option bool := match d with [] => None | (n, v) :: r => if String.eqb n k then Some v else fget r k end.
Fixpoint fset (d : flagdict) (k : string) (v : bool) : flagdict :=
  match d with [] => [(k, v)] | (n, w) :: r => if String.eqb n k then (n, v) :: r else (n, w) :: fset r k v end.
(** flag.set for a number, l.68-72 *)
Definition set_bit (value bit : Z) : Z := Z.lor value (Z.shiftl 1 bit).
(** _pdfflags, l.84-106 *)
Definition collect (table : list (string * Z)) (flags : flagdict) : Z :=
  fold_left (fun value kb => match fget flags (fst kb) with Some true => set_bit value (snd kb) | _ => value end) table 0%Z.
Definition pdfflags (flags : flagdict) : Z * Z := (collect PDFannotflags flags, collect PDFformflags flags).
(** selectflags, l.140-148 *)
Fixpoint overwrite (new given : flagdict) : option flagdict :=
  match given with
  | [] => Some new
  | (k, v) :: r => match fget new k with Some _ => overwrite (fset new k v) r | None => None end
  end.
Definition selectflags (defaults given : flagdict) : option flagdict := overwrite defaults given.
(** the default flags of text fields (l.164-166), radio buttons (l.353-354), checkboxes (l.402-403) and choice fields (l.613-615) *)
Definition text_defaults : flagdict :=
  [("invisible", false); ("hidden", false); ("printable", true); ("nozoom", false); ("norotate", false); ("noview", false); ("readonly", false); ("required", false);
   ("noexport", false); ("multiline", false); ("password", false); ("fileselect", false); ("donotspellcheck", true); ("donotscroll", false)]%string.
Definition radio_defaults : flagdict :=
  [("invisible", false); ("hidden", false); ("printable", true); ("nozoom", false); ("norotate", false); ("noview", false); ("readonly", false); ("required", false);
   ("noexport", false); ("notoggletooff", false)]%string.
Definition check_defaults : flagdict :=
  [("invisible", false); ("hidden", false); ("printable", true); ("nozoom", false); ("norotate", false); ("noview", false); ("readonly", false); ("required", false);
   ("noexport", false)]%string.
Definition choice_defaults : flagdict :=
  [("invisible", false); ("hidden", false); ("printable", true); ("nozoom", false); ("norotate", false); ("noview", false); ("readonly", false); ("required", false);
   ("noexport", false); ("combo", true); ("edit", false); ("sort", false); ("multiselect", false); ("donotspellcheck", true)]%string.
(** the flags of the fields: l.180, 361-362, 411 and 628; the radio buttons set one more *)
Definition text_flags := selectflags text_defaults.
Definition radio_flags (given : flagdict) : option flagdict := match selectflags radio_defaults given with Some f => Some (fset f "radio" true) | None => None end.
Definition check_flags := selectflags check_defaults.
Definition choice_flags := selectflags choice_defaults.
(** _pdfalignment, l.107-114 *)
Definition pdfalignment (s : string) : Z := if String.eqb s "c" then 1%Z else if String.eqb s "r" then 2%Z else 0%Z.

(** ** strings *)
Open Scope Z_scope.
(** the literal strings written for names and values, as in l.267-271, 482-484, 689-693 and 701 *)
Definition literal (s : list Z) : list Z := 40 :: s ++ [41].
(** str.isalnum (l.124) for ASCII characters *)
Definition isalnum (c : Z) : bool := (48 <=? c) && (c <=? 57) || (65 <=? c) && (c <=? 90) || (97 <=? c) && (c <=? 122).
(** _simplestring, l.121-127 *)
Definition simplestring (s : list Z) : list Z := filter isalnum s.
(** self.defaultvalue split at newlines, l.233 *)
Fixpoint split_lines (s : list Z) : list (list Z) :=
  match s with
  | [] => [[]]
  | c :: r => if c =? 10 then [] :: split_lines r else match split_lines r with l :: ls => (c :: l) :: ls | [] => [[c]] end
  end.
(** PDFdefaulttext.__init__, l.294: empty lines are dropped; write, l.317-319: the first line must exist *)
Definition texts (defaultvalue : list Z) : list (list Z) := filter (fun l => match l with [] => false | _ => true end) (split_lines defaultvalue).
Definition default_texts (defaultvalue : list Z) : option (list (list Z)) :=
  match defaultvalue with
  | [] => Some []
  | _ => match texts defaultvalue with [] => None | t => Some t end
  end.

(** ** buttons: PDFbuttonlist and PDFcheckboxfield, l.442-529 *)
Fixpoint eqb_str (a b : list Z) : bool := match a, b with [], [] => true | x :: r, y :: s => (x =? y) && eqb_str r s | _, _ => false end.
(** what is written: the name after /V of the list (l.486; None is written as its name in Python), and for each box the name of its on state in /AP and the one after /AS *)
Record buttons := mkbuttons { b_value : list Z; b_boxes : list (list Z * list Z) }.
Definition off : list Z := [79; 102; 102].
Definition none_name : list Z := [78; 111; 110; 101].
(** zip stops at the shorter list (l.463): [n] is the number of positions *)
Definition buttonlist (n : nat) (values : list (list Z)) (default : option (list Z)) : buttons :=
  mkbuttons (match default with Some d => d | None => none_name end)
    (map (fun v => (simplestring v, if match default with Some d => eqb_str v d | None => false end then simplestring v else off)) (firstn n values)).
(** checkbox.processPDF, l.434-440: one value Yes and the default Yes or Off *)
Definition yes : list Z := [89; 101; 115].
Definition checkbuttons (defaulton : bool) : buttons := buttonlist 1 [yes] (Some (if defaulton then yes else off)).

(** ** geometry *)
Open Scope R_scope.
(** _sizetrafo, l.128-131 *)
Definition hypot (x y : R) : R := sqrt (x * x + y * y).
Definition sizetrafo (s : R) (t : trafo) : R :=
  let p1 := apply_pt t (s, s) in let p0 := apply_pt t (0, 0) in hypot (fst p1 - fst p0) (snd p1 - snd p0) * sqrt 0.5.
(** the rectangle of text and choice fields, l.187-188 and 636-637 *)
Definition field_rect (x1 y1 x2 y2 : R) (t : trafo) : R * R * R * R := let p := apply_pt t (x1, y1) in let q := apply_pt t (x2, y2) in (fst p, snd p, fst q, snd q).
(** the rectangle of a button: the position less the base line (l.360, 409), transformed (l.378-379, 419-420), with the size at l.500 *)
Definition button_pos (x y size baselinerelpos : R) : R * R := (x, y - baselinerelpos * size).
Definition button_rect (pos : R * R) (size : R) (t : trafo) : R * R * R * R :=
  let p := apply_pt t pos in let s := sizetrafo size t in (fst p, snd p, fst p + s, snd p + s).
(** radiobuttons.bbox, l.366-371; min and max of an empty list are errors *)
Definition radio_bbox (positions : list (R * R)) (size : R) : option (R * R * R * R) :=
  match positions with
  | [] => None
  | p :: r => Some (fold_left Rmin (map fst r) (fst p), fold_left Rmin (map snd r) (snd p), fold_left Rmax (map fst r) (fst p) + size, fold_left Rmax (map snd r) (snd p) + size)
  end.
(** the base line of the first line in PDFdefaulttext.__init__, l.296-310, of [n] lines in a box of the given height; the other lines follow by the leading (the operators TL and quote) *)
Definition vshift (vcenter : bool) (height leading borderwidth fontsize : R) (n : nat) : R :=
  if vcenter then 0.5 * height + (INR n / 2 - 1) * leading + 0.215 * fontsize
  else if Rlt_dec height (leading + 4 * borderwidth) then 2 * borderwidth + 0.215 * fontsize
  else height - 2 * borderwidth - leading + (0.215 - 0.215) * fontsize.
Definition baseline (vcenter : bool) (height leading borderwidth fontsize : R) (n i : nat) : R := vshift vcenter height leading borderwidth fontsize n - INR i * leading.
