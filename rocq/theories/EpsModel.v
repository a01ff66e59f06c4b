(** Model of pyx/epsfile.py: the reading of lines (linefilereader, l.57-135), the bounding box (_readbbox, l.138-223) and the placement
    (epsfile.__init__, l.230-311, and bbox, l.319-320).

    A file is the list of the bytes which have not been read yet.  Exceptions are None. *)
From Coq Require Import Reals ZArith Ascii String List Bool.
From Verif Require Import TrafoModel BboxModel.
Import ListNotations.
Open Scope nat_scope.

Definition bytes := list ascii.
Definition CR := Ascii.ascii_of_nat 13.
Definition LF := Ascii.ascii_of_nat 10.
Definition lit (s : string) : bytes := list_ascii_of_string s.

(** ** linefilereader *)
(** self.buffer and what is left in self.file *)
Record reader := mkr { buffer : bytes; file : bytes }.

(** bytes.find for a single byte; None is -1 *)
Fixpoint find (c : ascii) (l : bytes) : option nat :=
  match l with [] => None | x :: r => if Ascii.eqb x c then Some 0 else option_map S (find c r) end.

(** read, l.83-106, with a number of bytes and the default EOFmsg *)
Definition read (count : nat) (r : reader) : option (bytes * reader) :=
  let '(b, f) :=
    if Nat.ltb (length (buffer r)) count
    then (buffer r ++ firstn (count - length (buffer r)) (file r), skipn (count - length (buffer r)) (file r))
    else (buffer r, file r) in
  if Nat.ltb (length b) count then None else Some (firstn count b, mkr (skipn count b) f).

(** the condition of the first branch of the loop, l.120, without EOF *)
Definition more (b : bytes) : bool :=
  match find LF b with
  | Some _ => false
  | None => match find CR b with None => true | Some crpos => Nat.eqb crpos (length b - 1) end
  end.
(** the second branch, l.126-135 *)
Definition eol (b : bytes) : nat :=
  let e := match find LF b with Some nlpos => nlpos + 1 | None => length b end in
  match find CR b with
  | None => e
  | Some crpos => match find LF b with None => crpos + 1 | Some nlpos => if Nat.ltb (crpos + 1) nlpos then crpos + 1 else e end
  end.
(** readline, l.108-135; the default EOFmsg, where None is the IOError; n is typicallinelen.  The fuel is the number of passes of the loop. *)
Fixpoint readline_loop (fuel n : nat) (EOF : bool) (b f : bytes) : option (bytes * reader) :=
  match fuel with
  | 0 => None
  | S fuel =>
      if more b && negb EOF then readline_loop fuel n (match firstn n f with [] => true | _ => false end) (b ++ firstn n f) (skipn n f)
      else match b with [] => None | _ => Some (firstn (eol b) b, mkr (skipn (eol b) b) f) end
  end.
Definition readline (n : nat) (r : reader) : option (bytes * reader) := readline_loop (length (file r) + 2) n false (buffer r) (file r).

(** all lines of a file: readline until the IOError *)
Fixpoint lines_loop (fuel n : nat) (r : reader) : list bytes :=
  match fuel with
  | 0 => []
  | S fuel => match readline n r with Some (l, r') => l :: lines_loop fuel n r' | None => [] end
  end.
Definition all_lines (n : nat) (f : bytes) : list bytes := lines_loop (length f) n (mkr [] f).

(** ** _readbbox *)
Fixpoint starts (p l : bytes) : bool :=
  match p, l with [], _ => true | x :: p, y :: l => Ascii.eqb x y && starts p l | _, [] => false end.
(** string.whitespace and the whitespace of bytes.split, rstrip: space, \t, \n, \v, \f, \r *)
Definition white (c : ascii) : bool := let n := nat_of_ascii c in Nat.eqb n 32 || (Nat.leb 9 n && Nat.leb n 13).
Fixpoint lstrip (l : bytes) : bytes := match l with c :: r => if white c then lstrip r else l | [] => [] end.
Definition rstrip (l : bytes) : bytes := rev (lstrip (rev l)).
(** split() without arguments: word is the current word in reverse order *)
Fixpoint split (word l : bytes) : list bytes :=
  match l with
  | [] => match word with [] => [] | _ => [rev word] end
  | c :: r => if white c then match word with [] => split [] r | _ => rev word :: split [] r end else split (c :: word) r
  end.
(** int(...) of bytes without whitespace, without underscores: an optional sign and at least one digit; None is the ValueError *)
Definition digit (c : ascii) : option Z :=
  let n := nat_of_ascii c in if Nat.leb 48 n && Nat.leb n 57 then Some (Z.of_nat (n - 48)) else None.
Fixpoint digits (acc : Z) (l : bytes) : option Z :=
  match l with [] => Some acc | c :: r => match digit c with Some d => digits (10 * acc + d)%Z r | None => None end end.
Definition int (l : bytes) : option Z :=
  match l with
  | [] => None
  | c :: r =>
      if Ascii.eqb c "-" then match r with [] => None | _ => option_map Z.opp (digits 0 r) end
      else if Ascii.eqb c "+" then match r with [] => None | _ => digits 0 r end
      else digits 0 l
  end.
(** l.153-161: the values of a line which starts with %%BoundingBox: (whose first colon is the 14th byte).  The comparison of a list of bytes
    with a list of a str in l.155 is False whatever the values are, so bboxatend stays 0. *)
Definition bbox_line (line : bytes) : option (Z * Z * Z * Z) :=
  match map int (split [] (skipn 14 line)) with
  | [Some a; Some b; Some c; Some d] => Some (a, b, c, d)
  | _ => None
  end.
(** l.162-163 *)
Definition ends_comments (line : bytes) : bool :=
  (if list_eq_dec ascii_dec (rstrip line) (lit "%%EndComments") then true else false) ||
  match line with a :: b :: _ => negb (Ascii.eqb a "%") && negb (white b) | _ => false end.
(** the loop over the header, l.149-167; after it an IOError is raised since bboxatend is 0 *)
Fixpoint header_loop (fuel n : nat) (r : reader) : option (Z * Z * Z * Z) :=
  match fuel with
  | 0 => None
  | S fuel =>
      match readline n r with
      | None => None
      | Some (line, r') =>
          if starts (lit "%%BoundingBox:") line then bbox_line line
          else if ends_comments line then None
          else header_loop fuel n r'
      end
  end.
Definition readbbox (n : nat) (f : bytes) : option (Z * Z * Z * Z) :=
  match readline n (mkr [] f) with
  | Some (line, r) => if starts (lit "%!") line then header_loop (length f) n r else None
  | None => None
  end.

(** ** epsfile.__init__, l.246-311; lengths in points; None are the ValueErrors and divisions by zero *)
Open Scope R_scope.
Definition scales (llx lly urx ury : R) (width height scale : option R) : option (option R * option R) :=
  match width, height with
  | None, None => Some (scale, scale)
  | _, _ =>
      match scale with
      | Some _ => None
      | None =>
          let y := match height with Some h => if Req_EM_T (ury - lly) 0 then None else Some (Some (h / (ury - lly))) | None => Some None end in
          let x := match width with Some w => if Req_EM_T (urx - llx) 0 then None else Some (Some (w / (urx - llx))) | None => Some None end in
          match x, y with
          | Some x, Some y =>
              let x := match x with None => y | Some _ => x end in
              let y := match y with None => x | Some _ => y end in
              Some (x, y)
          | _, _ => None
          end
      end
  end.
(** l.272-280: if self.scalex is neither None nor 0 *)
Definition scaled (size : R) (scale : option R) : R :=
  match scale with Some s => if Req_EM_T s 0 then size else size * s | None => size end.
(** l.283-301: the first letter is the vertical, the second the horizontal alignment *)
Definition valign (a : ascii) (y height : R) : option R :=
  if Ascii.eqb a "b" then Some y else if Ascii.eqb a "c" then Some (y - height / 2.0) else if Ascii.eqb a "t" then Some (y - height) else None.
Definition halign (a : ascii) (x width : R) : option R :=
  if Ascii.eqb a "l" then Some x else if Ascii.eqb a "c" then Some (x - width / 2.0) else if Ascii.eqb a "r" then Some (x - width) else None.
(** l.303-311 *)
Definition eps_trafo (x y llx lly urx ury : R) (width height scale : option R) (va ha : ascii) (translatebbox : bool) : option trafo :=
  match scales llx lly urx ury width height scale with
  | None => None
  | Some (sx, sy) =>
      match valign va y (scaled (ury - lly) sy), halign ha x (scaled (urx - llx) sx) with
      | Some y, Some x =>
          match (match sx with Some s => option_map (tmul (translate_pt x y)) (scale_pt s sy NoCentre) | None => Some (translate_pt x y) end) with
          | Some t => Some (if translatebbox then tmul t (translate_pt (- llx) (- lly)) else t)
          | None => None
          end
      | _, _ => None
      end
  end.
(** bbox, l.319-320 *)
Definition eps_bbox (t : trafo) (b : bbox) : bbox := transformed b t.
