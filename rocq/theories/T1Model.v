(** Model of pyx/font/t1file.py: charstrings of Type 1 fonts, the paths of their glyphs, and the selection of glyphs.

    Bytes and the numbers in charstrings are integers.  The transformation of points is a parameter.  None is an exception,
    or an endless recursion of subroutines (RecursionError in Python). *)
From Coq Require Import ZArith Bool Ascii String List Lia.
From Verif Require Import T1codeModel.
Import ListNotations.
Open Scope Z_scope.

Definition bind {A B} (o : option A) (f : A -> option B) : option B := match o with Some a => f a | None => None end.
Notation "'let*' x := a 'in' b" := (bind a (fun x => b)) (at level 61, x pattern, right associativity).

(** the commands, l.96-633 *)
Inductive cmd :=
| Endchar | Hsbw | Seac | Sbw | Closepath | Hlineto | Hmoveto | Hvcurveto | Rlineto | Rmoveto | Rrcurveto | Vlineto | Vmoveto | Vhcurveto
| Dotsection | Hstem | Hstem3 | Vstem | Vstem3 | Div | Callothersubr | Callsubr | Pop | Return | Setcurrentpoint.
(** the arguments code and subcmd of T1cmd.__init__ *)
Definition code_of (c : cmd) : bool * Z :=
  match c with
  | Endchar => (false, 14) | Hsbw => (false, 13) | Seac => (true, 6) | Sbw => (true, 7) | Closepath => (false, 9) | Hlineto => (false, 6)
  | Hmoveto => (false, 22) | Hvcurveto => (false, 31) | Rlineto => (false, 5) | Rmoveto => (false, 21) | Rrcurveto => (false, 8)
  | Vlineto => (false, 7) | Vmoveto => (false, 4) | Vhcurveto => (false, 30) | Dotsection => (true, 0) | Hstem => (false, 1)
  | Hstem3 => (true, 2) | Vstem => (false, 3) | Vstem3 => (true, 1) | Div => (true, 12) | Callothersubr => (true, 16)
  | Callsubr => (false, 10) | Pop => (true, 17) | Return => (false, 11) | Setcurrentpoint => (true, 33)
  end.
Definition all_cmds : list cmd :=
  [Endchar; Hsbw; Seac; Sbw; Closepath; Hlineto; Hmoveto; Hvcurveto; Rlineto; Rmoveto; Rrcurveto; Vlineto; Vmoveto; Vhcurveto;
   Dotsection; Hstem; Hstem3; Vstem; Vstem3; Div; Callothersubr; Callsubr; Pop; Return; Setcurrentpoint].
(** the dictionaries T1cmds and T1subcmds, l.100-107; None is a KeyError *)
Definition cmd_of (subcmd : bool) (code : Z) : option cmd :=
  find (fun c => Bool.eqb (fst (code_of c)) subcmd && (snd (code_of c) =? code)) all_cmds.

Inductive tok := Num (v : Z) | Cmd (c : cmd).

(** ** Charstrings *)
(** the loop of _cmds, l.793-812, on decoded data; an IndexError at the end of the data *)
Fixpoint cmds_loop (fuel : nat) (code : list Z) : option (list tok) :=
  match fuel, code with
  | _, [] => Some []
  | O, _ => None
  | S f, x :: code =>
      if x =? 12 then match code with y :: code => let* c := cmd_of true y in let* r := cmds_loop f code in Some (Cmd c :: r) | [] => None end
      else if (0 <=? x) && (x <? 32) then let* c := cmd_of false x in let* r := cmds_loop f code in Some (Cmd c :: r)
      else if (32 <=? x) && (x <=? 246) then let* r := cmds_loop f code in Some (Num (x - 139) :: r)
      else if (247 <=? x) && (x <=? 250) then
        match code with y :: code => let* r := cmds_loop f code in Some (Num ((x - 247) * 256 + y + 108) :: r) | [] => None end
      else if (251 <=? x) && (x <=? 254) then
        match code with y :: code => let* r := cmds_loop f code in Some (Num (- ((x - 251) * 256) - y - 108) :: r) | [] => None end
      else match code with
           | a :: b :: c :: d :: code =>
               let y := ((a * 256 + b) * 256 + c) * 256 + d in
               let* r := cmds_loop f code in Some (Num (if 2147483648 <? y then y - 4294967296 else y) :: r)
           | _ => None
           end
  end.
Definition plain_cmds (code : list Z) : option (list tok) := cmds_loop (length code) code.

(** the loop of _code, l.817-842, before the encoding; array.append of anything which is not a byte is an OverflowError *)
Definition bytes_of (l : list Z) : option (list Z) := fold_right append_byte (Some []) l.
Definition tok_bytes (t : tok) : list Z :=
  match t with
  | Cmd c => let '(sub, k) := code_of c in if sub then [12; k] else [k]
  | Num v =>
      if (-107 <=? v) && (v <=? 107) then [v + 139]
      else if (108 <=? v) && (v <=? 1131) then [(v - 108) / 256 + 247; (v - 108) mod 256]
      else if (-1131 <=? v) && (v <=? -108) then [(- v - 108) / 256 + 251; (- v - 108) mod 256]
      else let v := if v <? 0 then v + 4294967296 else v in [255; v / 256 / 256 / 256; v / 256 / 256 mod 256; v / 256 mod 256; v mod 256]
  end.
Definition plain_code (l : list tok) : option (list Z) := bytes_of (flat_map tok_bytes l).

(** charstringr, l.640; _charstringdecode and _charstringencode, l.680-682, 679-681 *)
Definition charstringr : Z := 4330.
Definition pyx_bytes : list Z := [80; 121; 88; 33].
Definition charstringdecode (lenIV : nat) (code : list Z) : option (list Z) := decoder code charstringr lenIV.
Definition charstringencode (lenIV : nat) (data : list Z) : option (list Z) := encoder data charstringr (firstn lenIV pyx_bytes).
(** _cmds and _code, l.790-843 *)
Definition cmds (lenIV : nat) (code : list Z) : option (list tok) := let* d := charstringdecode lenIV code in plain_cmds d.
Definition code (lenIV : nat) (l : list tok) : option (list Z) := let* d := plain_code l in charstringencode lenIV d.

(** ** Fonts *)
(** The commands of all subroutines and glyphs (getsubrcmds and getglyphcmds, l.845-855); glyphs is a dictionary. *)
Record font := mkfont { subrs : list (list tok); glyphs : list (string * list tok) }.
(** self.subrs[i] with Python's negative indices *)
Definition getsubr (F : font) (i : Z) : option (list tok) :=
  if 0 <=? i then nth_error (subrs F) (Z.to_nat i)
  else if 0 <=? i + Z.of_nat (length (subrs F)) then nth_error (subrs F) (Z.to_nat (i + Z.of_nat (length (subrs F)))) else None.
Definition getglyph (F : font) (g : string) : option (list tok) :=
  option_map snd (find (fun e => String.eqb (fst e) g) (glyphs F)).

(** adobestandardencoding, l.41-72 *)
Definition adobestandardencoding : list (option string) :=
  ([None; None; None; None; None; None; None; None;
   None; None; None; None; None; None; None; None;
   None; None; None; None; None; None; None; None;
   None; None; None; None; None; None; None; None;
   Some "space"; Some "exclam"; Some "quotedbl"; Some "numbersign"; Some "dollar"; Some "percent"; Some "ampersand"; Some "quoteright";
   Some "parenleft"; Some "parenright"; Some "asterisk"; Some "plus"; Some "comma"; Some "hyphen"; Some "period"; Some "slash";
   Some "zero"; Some "one"; Some "two"; Some "three"; Some "four"; Some "five"; Some "six"; Some "seven";
   Some "eight"; Some "nine"; Some "colon"; Some "semicolon"; Some "less"; Some "equal"; Some "greater"; Some "question";
   Some "at"; Some "A"; Some "B"; Some "C"; Some "D"; Some "E"; Some "F"; Some "G";
   Some "H"; Some "I"; Some "J"; Some "K"; Some "L"; Some "M"; Some "N"; Some "O";
   Some "P"; Some "Q"; Some "R"; Some "S"; Some "T"; Some "U"; Some "V"; Some "W";
   Some "X"; Some "Y"; Some "Z"; Some "bracketleft"; Some "backslash"; Some "bracketright"; Some "asciicircum"; Some "underscore";
   Some "quoteleft"; Some "a"; Some "b"; Some "c"; Some "d"; Some "e"; Some "f"; Some "g";
   Some "h"; Some "i"; Some "j"; Some "k"; Some "l"; Some "m"; Some "n"; Some "o";
   Some "p"; Some "q"; Some "r"; Some "s"; Some "t"; Some "u"; Some "v"; Some "w";
   Some "x"; Some "y"; Some "z"; Some "braceleft"; Some "bar"; Some "braceright"; Some "asciitilde"; None;
   None; None; None; None; None; None; None; None;
   None; None; None; None; None; None; None; None;
   None; None; None; None; None; None; None; None;
   None; None; None; None; None; None; None; None;
   None; Some "exclamdown"; Some "cent"; Some "sterling"; Some "fraction"; Some "yen"; Some "florin"; Some "section";
   Some "currency"; Some "quotesingle"; Some "quotedblleft"; Some "guillemotleft"; Some "guilsinglleft"; Some "guilsinglright"; Some "fi"; Some "fl";
   None; Some "endash"; Some "dagger"; Some "daggerdbl"; Some "periodcentered"; None; Some "paragraph"; Some "bullet";
   Some "quotesinglbase"; Some "quotedblbase"; Some "quotedblright"; Some "guillemotright"; Some "ellipsis"; Some "perthousand"; None; Some "questiondown";
   None; Some "grave"; Some "acute"; Some "circumflex"; Some "tilde"; Some "macron"; Some "breve"; Some "dotaccent";
   Some "dieresis"; None; Some "ring"; Some "cedilla"; None; Some "hungarumlaut"; Some "ogonek"; Some "caron";
   Some "emdash"; None; None; None; None; None; None; None;
   None; None; None; None; None; None; None; None;
   None; Some "AE"; None; Some "ordfeminine"; None; None; None; None;
   Some "Lslash"; Some "Oslash"; Some "OE"; Some "ordmasculine"; None; None; None; None;
   None; Some "ae"; None; None; None; Some "dotlessi"; None; None;
   Some "lslash"; Some "oslash"; Some "oe"; Some "germandbls"; None; None; None; None])%string.
(** adobestandardencoding[i], again with negative indices; the key None is not in glyphs *)
Definition standard (i : Z) : option string :=
  if (0 <=? i) && (i <? 256) then nth (Z.to_nat i) adobestandardencoding None
  else if (-256 <=? i) && (i <? 0) then nth (Z.to_nat (i + 256)) adobestandardencoding None else None.

(** list.pop(0) and list.pop() *)
Definition pop0 (l : list Z) : option (Z * list Z) := match l with a :: r => Some (a, r) | [] => None end.
Definition pop (l : list Z) : option (Z * list Z) := match rev l with a :: r => Some (a, rev r) | [] => None end.
(** n times *)
Fixpoint pops0 (n : nat) (l : list Z) : option (list Z * list Z) :=
  match n with O => Some ([], l) | S n => let* (a, r) := pop0 l in let* (s, r) := pops0 n r in Some (a :: s, r) end.
(** Python's divmod(a, b)[0] of integers *)
Definition floordiv (a b : Z) : option Z := if b =? 0 then None else Some (a / b).

Section Paths.
  Variables T P : Type. (* transformations and points *)
  Variable apply : T -> Z -> Z -> P. (* trafo.apply_pt *)
  Variable shift : T -> Z -> Z -> T. (* trafo * translate_pt(x, y) *)

  Inductive item := IMoveto (p : P) | ILineto (p : P) | ICurveto (p1 p2 p3 : P) | IClosepath.

  (** T1context, l.74-87, and the path, last item first.  x and y (None before the first hsbw) are set together, as wx and wy
      are. *)
  Record context := mkcontext { point : option (Z * Z); width : option (Z * Z); t1stack : list Z; psstack : list Z; items : list item }.
  Definition set_stack (s : list Z) (c : context) := mkcontext (point c) (width c) s (psstack c) (items c).

  Variable flex : bool.
  Variable F : font.

  (** the arguments of a command: n values from the bottom of the stack *)
  Definition args (n : nat) (c : context) : option (list Z * context) := let* (l, s) := pops0 n (t1stack c) in Some (l, set_stack s c).
  Definition add (i : item) (c : context) := mkcontext (point c) (width c) (t1stack c) (psstack c) (i :: items c).
  Definition goto (x y : Z) (c : context) := mkcontext (Some (x, y)) (width c) (t1stack c) (psstack c) (items c).
  (** hsbw and sbw, l.150-158, 207-217 *)
  Definition begin (t : T) (sbx sby wx wy : Z) (c : context) : context :=
    mkcontext (Some (sbx, sby)) (Some (wx, wy)) (t1stack c) (psstack c) (IMoveto (apply t sbx sby) :: items c).
  (** the moveto, lineto and curveto commands, l.250-391 *)
  Definition move (t : T) (dx dy : Z) (c : context) : option context :=
    let* (x, y) := point c in Some (goto (x + dx) (y + dy) (add (IMoveto (apply t (x + dx) (y + dy))) c)).
  Definition line (t : T) (dx dy : Z) (c : context) : option context :=
    let* (x, y) := point c in Some (goto (x + dx) (y + dy) (add (ILineto (apply t (x + dx) (y + dy))) c)).
  Definition curve (t : T) (dx1 dy1 dx2 dy2 dx3 dy3 : Z) (c : context) : option context :=
    let* (x, y) := point c in
    Some (goto (x + (dx1 + dx2 + dx3)) (y + (dy1 + dy2 + dy3))
      (add (ICurveto (apply t (x + dx1) (y + dy1)) (apply t (x + dx1 + dx2) (y + dy1 + dy2)) (apply t (x + dx1 + dx2 + dx3) (y + dy1 + dy2 + dy3))) c)).

  (** T1callothersubr.updatepath, l.530-556 *)
  Definition last3 (l : list Z) : option (Z * Z * Z) := match rev l with a :: b :: c :: _ => Some (c, b, a) | _ => None end.
  Definition othersubr (t : T) (c : context) : option context :=
    let* (number, s) := pop (t1stack c) in
    let* (n, s) := pop s in
    let* (l, s) := pops0 (Z.to_nat n) s in
    let ps := psstack c ++ l in
    if number =? 0 then
      let* (_, x, y) := last3 ps in
      let* its :=
        (if flex then
           match skipn 2 ps with
           | x1 :: y1 :: x2 :: y2 :: x3 :: y3 :: x4 :: y4 :: x5 :: y5 :: x6 :: y6 :: _ =>
               Some [ICurveto (apply t x4 y4) (apply t x5 y5) (apply t x6 y6); ICurveto (apply t x1 y1) (apply t x2 y2) (apply t x3 y3)]
           | _ => None
           end
         else Some [ILineto (apply t x y)]) in
      Some (mkcontext (point c) (width c) s [y; x] (its ++ items c))
    else if number =? 2 then
      match items c, point c with
      | _ :: r, Some (x, y) => Some (mkcontext (point c) (width c) s (ps ++ [x; y]) r)
      | _, _ => None
      end
    else Some (mkcontext (point c) (width c) s ps (items c)).

  (** updatepath of all commands and T1File.updatepath, updatesubrpath and updateglyphpath, l.869-880 *)
  Fixpoint update (fuel : nat) (l : list tok) (t : T) (c : context) : option context :=
    match fuel with
    | O => None
    | S f =>
        match l with
        | [] => Some c
        | k :: l =>
            let* c :=
              match k with
              | Num v => Some (set_stack (t1stack c ++ [v]) c)
              | Cmd k =>
                  match k with
                  | Endchar | Dotsection | Return => Some c
                  | Hsbw => let* (a, c) := args 2 c in match a with [sbx; wx] => Some (begin t sbx 0 wx 0 c) | _ => None end
                  | Sbw => let* (a, c) := args 4 c in match a with [sbx; sby; wx; wy] => Some (begin t sbx sby wx wy c) | _ => None end
                  | Seac =>
                      let* (a, c) := args 5 c in
                      match a with
                      | [sab; adx; ady; bchar; achar] =>
                          let* aglyph := standard achar in let* bglyph := standard bchar in
                          let* b := getglyph F bglyph in
                          let* c := update f b t c in
                          let* a := getglyph F aglyph in
                          update f a (shift t (adx - sab) ady) c
                      | _ => None
                      end
                  | Closepath => let* (x, y) := point c in Some (add (IMoveto (apply t x y)) (add IClosepath c))
                  | Hlineto => let* (a, c) := args 1 c in match a with [dx] => line t dx 0 c | _ => None end
                  | Vlineto => let* (a, c) := args 1 c in match a with [dy] => line t 0 dy c | _ => None end
                  | Rlineto => let* (a, c) := args 2 c in match a with [dx; dy] => line t dx dy c | _ => None end
                  | Hmoveto => let* (a, c) := args 1 c in match a with [dx] => move t dx 0 c | _ => None end
                  | Vmoveto => let* (a, c) := args 1 c in match a with [dy] => move t 0 dy c | _ => None end
                  | Rmoveto => let* (a, c) := args 2 c in match a with [dx; dy] => move t dx dy c | _ => None end
                  | Hvcurveto => let* (a, c) := args 4 c in match a with [dx1; dx2; dy2; dy3] => curve t dx1 0 dx2 dy2 0 dy3 c | _ => None end
                  | Vhcurveto => let* (a, c) := args 4 c in match a with [dy1; dx2; dy2; dx3] => curve t 0 dy1 dx2 dy2 dx3 0 c | _ => None end
                  | Rrcurveto => let* (a, c) := args 6 c in match a with [dx1; dy1; dx2; dy2; dx3; dy3] => curve t dx1 dy1 dx2 dy2 dx3 dy3 c | _ => None end
                  | Hstem | Vstem => let* (_, c) := args 2 c in Some c
                  | Hstem3 | Vstem3 => let* (_, c) := args 6 c in Some c
                  | Div =>
                      let* (num2, s) := pop (t1stack c) in let* (num1, s) := pop s in
                      let* q := floordiv num1 num2 in Some (set_stack (s ++ [q]) c)
                  | Callothersubr => othersubr t c
                  | Callsubr =>
                      let* (i, s) := pop (t1stack c) in
                      let* b := getsubr F i in update f b t (set_stack s c)
                  | Pop => let* (v, s) := pop (psstack c) in Some (mkcontext (point c) (width c) (t1stack c ++ [v]) s (items c))
                  | Setcurrentpoint => let* (a, c) := args 2 c in match a with [x; y] => Some (goto x y c) | _ => None end
                  end
              end in
            update f l t c
        end
    end.

  (** getglyphpath_pt, l.902-918, without the conversion of the width *)
  Definition getglyphpath (fuel : nat) (g : string) (t : T) : option (list item * option (Z * Z)) :=
    let* l := getglyph F g in
    let* c := update fuel l t (mkcontext None None [] [] []) in Some (rev (items c), width c).
End Paths.

(** ** The selection of glyphs *)
(** seacglyphs and subrs, and the stacks of the context *)
Record gathered := mkgathered { g_glyphs : list string; g_subrs : list Z; g_stack : list Z; g_ps : list Z }.
(** the top n values in their order: [pop() for i in range(n)][::-1] *)
Definition poptop (n : nat) (l : list Z) : option (list Z * list Z) :=
  if (n <=? length l)%nat then Some (skipn (length l - n) l, firstn (length l - n) l) else None.

(** gathercalls of all commands and of T1File, l.882-892 *)
Fixpoint gather (F : font) (fuel : nat) (l : list tok) (g : gathered) : option gathered :=
  match fuel with
  | O => None
  | S f =>
      match l with
      | [] => Some g
      | k :: l =>
          let* g :=
            match k with
            | Num v => Some (mkgathered (g_glyphs g) (g_subrs g) (g_stack g ++ [v]) (g_ps g))
            | Cmd Seac => (* l.189-198 *)
                let* (achar, s) := pop (g_stack g) in let* (bchar, s) := pop s in
                let* aglyph := standard achar in let* bglyph := standard bchar in
                let* b := getglyph F bglyph in let* a := getglyph F aglyph in
                let* g := gather F f b (mkgathered (bglyph :: aglyph :: g_glyphs g) (g_subrs g) s (g_ps g)) in gather F f a g
            | Cmd Div => (* l.516-519 *)
                let* (num2, s) := pop (g_stack g) in let* (num1, s) := pop s in
                let* q := floordiv num1 num2 in Some (mkgathered (g_glyphs g) (g_subrs g) (s ++ [q]) (g_ps g))
            | Cmd Callothersubr => (* l.562-565 *)
                let* (_, s) := pop (g_stack g) in let* (n, s) := pop s in
                let* (a, s) := poptop (Z.to_nat n) s in Some (mkgathered (g_glyphs g) (g_subrs g) s (g_ps g ++ a))
            | Cmd Callsubr => (* l.582-585 *)
                let* (i, s) := pop (g_stack g) in
                let* b := getsubr F i in gather F f b (mkgathered (g_glyphs g) (i :: g_subrs g) s (g_ps g))
            | Cmd Pop => (* l.600-601 *)
                let* (v, s) := pop (g_ps g) in Some (mkgathered (g_glyphs g) (g_subrs g) (g_stack g ++ [v]) s)
            | Cmd _ => Some g
            end in
          gather F f l g
      end
  end.

(** getstrippedfont, l.1003-1019: the glyphs are gathered one by one, each with a new context; the result is the set of
    glyphs and the set of subroutines.  (The loop goes over a set, in any order.) *)
Fixpoint gather_all (F : font) (fuel : nat) (gs : list string) (seac : list string) (used : list Z) : option (list string * list Z) :=
  match gs with
  | [] => Some (seac, used)
  | g :: gs =>
      let* l := getglyph F g in
      let* r := gather F fuel l (mkgathered seac used [] []) in gather_all F fuel gs (g_glyphs r) (g_subrs r)
  end.
Definition selected (F : font) (fuel : nat) (gs : list string) : option (list string * list Z) :=
  let* (seac, used) := gather_all F fuel gs [] [] in Some (gs ++ seac ++ [".notdef"%string], used).

(** flexhintsubrs, l.709-712, and hasflexhintsubrs, l.763-765 *)
Definition flexhintsubrs : list (list tok) :=
  [[Num 3; Num 0; Cmd Callothersubr; Cmd Pop; Cmd Pop; Cmd Setcurrentpoint; Cmd Return]; [Num 0; Num 1; Cmd Callothersubr; Cmd Return];
   [Num 0; Num 2; Cmd Callothersubr; Cmd Return]; [Cmd Return]].
Definition cmd_number (c : cmd) : Z := let '(sub, k) := code_of c in if sub then 256 + k else k.
Definition tok_eqb (a b : tok) : bool :=
  match a, b with Num x, Num y => x =? y | Cmd c, Cmd d => cmd_number c =? cmd_number d | _, _ => false end.
Fixpoint list_eqb {A} (e : A -> A -> bool) (a b : list A) : bool :=
  match a, b with [], [] => true | x :: a, y :: b => e x y && list_eqb e a b | _, _ => false end.
Definition hasflexhintsubrs (F : font) : bool := list_eqb (list_eqb tok_eqb) (firstn 4 (subrs F)) flexhintsubrs.

(** addsubrs and addcharstrings in getdata2, l.929-978: the subroutines and glyphs which the new font has.  Subroutines which
    are not used become empty (l.729).  max and min are those of the set. *)
Definition adjusted (F : font) (used : list Z) : list Z :=
  match used with
  | [] => []
  | a :: r => if hasflexhintsubrs F && (fold_right Z.min a r <? 4) then [0; 1; 2; 3] ++ used else used
  end.
Definition stripped (F : font) (gs : list string) (used : list Z) : font :=
  let used := adjusted F used in
  let count := Z.to_nat (fold_right Z.max (-1) used + 1) in
  mkfont (map (fun i => if existsb (Z.eqb (Z.of_nat i)) used then nth i (subrs F) [] else [Cmd Return]) (seq 0 count))
    (filter (fun e => existsb (String.eqb (fst e)) gs) (glyphs F)).
