(** What charstrings of Type 1 fonts mean: Adobe Type 1 Font Format, chapters 6 and 8.

    Commands find exactly their arguments on the stack and clear it; subroutines 0 to 3 and OtherSubrs 0 to 3 are used for
    flex and hint replacement only.  Strings which break these rules have no meaning here.  Quotients are used if they are
    integers only (others are not represented in the code). *)
From Coq Require Import ZArith Bool String List Lia.
From Verif Require Import T1Model.
Import ListNotations.
Open Scope Z_scope.

(** ** What is drawn *)
(** subpaths, each from its first point through lines and curves *)
Inductive op (P : Type) := Begin (p : P) | Line (p : P) | Curve (p1 p2 p3 : P) | Close.
Arguments Begin {P}. Arguments Line {P}. Arguments Curve {P}. Arguments Close {P}.
Definition op_map {P Q} (f : P -> Q) (o : op P) : op Q :=
  match o with Begin p => Begin (f p) | Line p => Line (f p) | Curve a b c => Curve (f a) (f b) (f c) | Close => Close end.

(** What a PostScript path draws: a moveto counts if something is drawn from there only.  The result is what is drawn, and
    the point of a moveto which did not count yet. *)
Definition paint {P} (s : list (op P) * option P) (i : item P) : list (op P) * option P :=
  let '(l, m) := s in
  let b := match m with Some p => [Begin p] | None => [] end in
  match i with
  | IMoveto _ p => (l, Some p)
  | ILineto _ p => (l ++ b ++ [Line p], None)
  | ICurveto _ p1 p2 p3 => (l ++ b ++ [Curve p1 p2 p3], None)
  | IClosepath _ => (l ++ b ++ [Close], None)
  end.
Definition painted {P} (l : list (item P)) : list (op P) * option P := fold_left paint l ([], None).

(** ** The interpretation of charstrings *)
Definition pos : Type := Z * Z.
Record state := mkstate {
  stack : list Z; cur : option pos; (* the current point, after hsbw or sbw *)
  bearing : Z; wid : option pos; moved : bool; (* whether there was a moveto and nothing is drawn from there yet *)
  flexing : option (pos * list pos * bool); (* where the flex begins, its points, and whether there was a moveto for the next *)
  drawn : list (op pos); ended : bool; composite : bool }.
Definition initial : state := mkstate [] None 0 None false None [] false false.
Definition with_stack (s : list Z) (st : state) := mkstate s (cur st) (bearing st) (wid st) (moved st) (flexing st) (drawn st) (ended st) (composite st).
(** o is drawn from the point p, and ends in q *)
Definition draw (o : list (op pos)) (p q : pos) (again : bool) (st : state) :=
  mkstate [] (Some q) (bearing st) (wid st) again None (drawn st ++ (if moved st then [Begin p] else []) ++ o) (ended st) (composite st).
Definition starts (sbx sby wx wy : Z) (st : state) :=
  mkstate [] (Some (sbx, sby)) sbx (Some (wx, wy)) true None (drawn st) (ended st) (composite st).
(** a moveto; within a flex it goes to the next point of it *)
Definition moves (q : pos) (st : state) :=
  match flexing st with
  | None => mkstate [] (Some q) (bearing st) (wid st) true None (drawn st) (ended st) (composite st)
  | Some (s, l, _) => mkstate [] (Some q) (bearing st) (wid st) (moved st) (Some (s, l, true)) (drawn st) (ended st) (composite st)
  end.
Definition with_flex (f : option (pos * list pos * bool)) (st : state) :=
  mkstate [] (cur st) (bearing st) (wid st) (moved st) f (drawn st) (ended st) (composite st).

Inductive simple : cmd -> state -> state -> Prop :=
| S_hsbw st sbx wx : stack st = [sbx; wx] -> cur st = None -> flexing st = None -> simple Hsbw st (starts sbx 0 wx 0 st)
| S_sbw st sbx sby wx wy : stack st = [sbx; sby; wx; wy] -> cur st = None -> flexing st = None -> simple Sbw st (starts sbx sby wx wy st)
| S_closepath st p : stack st = [] -> cur st = Some p -> flexing st = None -> simple Closepath st (draw [Close] p p true st)
| S_hlineto st x y dx : stack st = [dx] -> cur st = Some (x, y) -> flexing st = None -> simple Hlineto st (draw [Line (x + dx, y)] (x, y) (x + dx, y) false st)
| S_vlineto st x y dy : stack st = [dy] -> cur st = Some (x, y) -> flexing st = None -> simple Vlineto st (draw [Line (x, y + dy)] (x, y) (x, y + dy) false st)
| S_rlineto st x y dx dy : stack st = [dx; dy] -> cur st = Some (x, y) -> flexing st = None -> simple Rlineto st (draw [Line (x + dx, y + dy)] (x, y) (x + dx, y + dy) false st)
| S_hmoveto st x y dx : stack st = [dx] -> cur st = Some (x, y) -> (forall s l, flexing st <> Some (s, l, true)) -> simple Hmoveto st (moves (x + dx, y) st)
| S_vmoveto st x y dy : stack st = [dy] -> cur st = Some (x, y) -> (forall s l, flexing st <> Some (s, l, true)) -> simple Vmoveto st (moves (x, y + dy) st)
| S_rmoveto st x y dx dy : stack st = [dx; dy] -> cur st = Some (x, y) -> (forall s l, flexing st <> Some (s, l, true)) -> simple Rmoveto st (moves (x + dx, y + dy) st)
| S_rrcurveto st x y dx1 dy1 dx2 dy2 dx3 dy3 : stack st = [dx1; dy1; dx2; dy2; dx3; dy3] -> cur st = Some (x, y) -> flexing st = None ->
    simple Rrcurveto st (draw [Curve (x + dx1, y + dy1) (x + dx1 + dx2, y + dy1 + dy2) (x + dx1 + dx2 + dx3, y + dy1 + dy2 + dy3)]
      (x, y) (x + dx1 + dx2 + dx3, y + dy1 + dy2 + dy3) false st)
(* dx1 0 dx2 dy2 0 dy3 rrcurveto *)
| S_hvcurveto st x y dx1 dx2 dy2 dy3 : stack st = [dx1; dx2; dy2; dy3] -> cur st = Some (x, y) -> flexing st = None ->
    simple Hvcurveto st (draw [Curve (x + dx1, y) (x + dx1 + dx2, y + dy2) (x + dx1 + dx2, y + dy2 + dy3)] (x, y) (x + dx1 + dx2, y + dy2 + dy3) false st)
(* 0 dy1 dx2 dy2 dx3 0 rrcurveto *)
| S_vhcurveto st x y dy1 dx2 dy2 dx3 : stack st = [dy1; dx2; dy2; dx3] -> cur st = Some (x, y) -> flexing st = None ->
    simple Vhcurveto st (draw [Curve (x, y + dy1) (x + dx2, y + dy1 + dy2) (x + dx2 + dx3, y + dy1 + dy2)] (x, y) (x + dx2 + dx3, y + dy1 + dy2) false st)
| S_dotsection st : stack st = [] -> simple Dotsection st st
| S_hstem st a b : stack st = [a; b] -> simple Hstem st (with_stack [] st)
| S_vstem st a b : stack st = [a; b] -> simple Vstem st (with_stack [] st)
| S_hstem3 st a b c d e f : stack st = [a; b; c; d; e; f] -> simple Hstem3 st (with_stack [] st)
| S_vstem3 st a b c d e f : stack st = [a; b; c; d; e; f] -> simple Vstem3 st (with_stack [] st)
| S_div st s q b : stack st = s ++ [q * b; b] -> b <> 0 -> simple Div st (with_stack (s ++ [q]) st)
(* OtherSubrs 1: a flex begins; OtherSubrs 2: one more point *)
| S_flex_begin st p : stack st = [0; 1] -> cur st = Some p -> flexing st = None -> simple Callothersubr st (with_flex (Some (p, [], false)) st)
| S_flex_point st p s l : stack st = [0; 2] -> cur st = Some p -> flexing st = Some (s, l, true) -> simple Callothersubr st (with_flex (Some (s, l ++ [p], false)) st).

Section Exec.
  Variable flex : bool. (* whether a flex is drawn as curves; otherwise it is a line *)
  Variable F : font.

  Definition flex_ops (p1 p2 p3 p4 p5 p6 : pos) : list (op pos) := if flex then [Curve p1 p2 p3; Curve p4 p5 p6] else [Line p6].
  (** A composite glyph: the accent's left side bearing point is at (adx, ady) from the one of the composite glyph. *)
  Definition composed (st b a : state) (asb adx ady : Z) : state :=
    mkstate [] None (bearing st) (wid st) false None
      (drawn st ++ drawn b ++ map (op_map (fun p => (fst p + (bearing st + adx - asb), snd p + ady))) (drawn a)) true true.

  Inductive exec : list tok -> state -> state -> Prop :=
  | E_nil st : exec [] st st
  | E_num v l st st' : ended st = false -> exec l (with_stack (stack st ++ [v]) st) st' -> exec (Num v :: l) st st'
  | E_simple c l st st1 st' : ended st = false -> simple c st st1 -> exec l st1 st' -> exec (Cmd c :: l) st st'
  | E_return st : ended st = false -> exec [Cmd Return] st st
  | E_endchar st : ended st = false -> stack st = [] -> flexing st = None ->
      exec [Cmd Endchar] st (mkstate [] (cur st) (bearing st) (wid st) (moved st) None (drawn st) true (composite st))
  | E_callsubr i s b l st st1 st' : ended st = false -> stack st = s ++ [Z.of_nat i] -> nth_error (subrs F) i = Some b ->
      exec b (with_stack s st) st1 -> exec l st1 st' -> exec (Cmd Callsubr :: l) st st'
  (* OtherSubrs 0: the flex is drawn; the first of its points is a reference point *)
  | E_flex size x y s r p1 p2 p3 p4 p5 l st st' : ended st = false -> stack st = [size; x; y; 3; 0] -> cur st = Some (x, y) ->
      flexing st = Some (s, [r; p1; p2; p3; p4; p5; (x, y)], false) ->
      exec l (draw (flex_ops p1 p2 p3 p4 p5 (x, y)) s (x, y) false st) st' ->
      exec (Cmd Callothersubr :: Cmd Pop :: Cmd Pop :: Cmd Setcurrentpoint :: l) st st'
  (* OtherSubrs 3: hint replacement, the number of the subroutine with the new hints is returned *)
  | E_hints i l st st' : ended st = false -> stack st = [i; 1; 3] -> exec l (with_stack [i] st) st' ->
      exec (Cmd Callothersubr :: Cmd Pop :: l) st st'
  (* the glyphs of a composite glyph are not composite themselves *)
  | E_seac asb adx ady bchar achar bglyph aglyph bl al b a st : ended st = false -> stack st = [asb; adx; ady; bchar; achar] ->
      cur st <> None -> flexing st = None -> drawn st = [] ->
      0 <= bchar < 256 -> 0 <= achar < 256 -> nth (Z.to_nat bchar) adobestandardencoding None = Some bglyph -> nth (Z.to_nat achar) adobestandardencoding None = Some aglyph ->
      getglyph F bglyph = Some bl -> getglyph F aglyph = Some al ->
      exec bl initial b -> exec al initial a -> ended b = true -> ended a = true -> composite b = false -> composite a = false ->
      exec [Cmd Seac] st (composed st b a asb adx ady).
End Exec.
