(** Model of pyx/color.py l.104-105, 116-126, 147-148, 161-179, 277-278: bytes and hexadecimal strings of colors.
    Floats are IEEE binary64 numbers here (Coq.Floats.SpecFloat: precision 53, exponents up to 1024,
    rounding to nearest even), as in Python.  Strings are lists of ASCII characters. *)
From Coq Require Import ZArith Floats.SpecFloat Ascii String List Bool.
Import ListNotations.
Open Scope Z_scope.

(** ** Python floats *)
Definition flt (z : Z) : spec_float := binary_normalize 53 1024 z 0 false.
Definition fdiv := SFdiv 53 1024.
Definition fmul := SFmul 53 1024.
Definition fadd := SFadd 53 1024.
(** a decimal literal is the float next to it, which is the rounded quotient *)
Definition literal (a b : Z) : spec_float := fdiv (flt a) (flt b).
(** int(x): truncation towards zero; an error for infinities and nan *)
Definition int (x : spec_float) : option Z :=
  match x with
  | S754_zero _ => Some 0
  | S754_finite s m e => let v := if 0 <=? e then Zpos m * 2 ^ e else Zpos m / 2 ^ (- e) in Some (if s then - v else v)
  | _ => None
  end.
(** ** rgb colors *)
Record rgb := { red : spec_float; green : spec_float; blue : spec_float }.
(** the range check of the constructor, l.118-123 *)
Definition in_range (x : spec_float) : bool := negb (SFltb x (flt 0)) && negb (SFltb (flt 1) x).
Definition new_rgb (r g b : spec_float) : option rgb :=
  if in_range r && in_range g && in_range b then Some {| red := r; green := g; blue := b |} else None.
(** one byte of to8bitbytes, l.105, 162, 278: struct.pack("B", v) fails outside 0..255 *)
Definition byte_of (x : spec_float) : option Z :=
  match int (fmul x (flt 255)) with Some v => if (0 <=? v) && (v <=? 255) then Some v else None | None => None end.
Definition to8bitbytes (c : rgb) : option (list Z) :=
  match byte_of (red c), byte_of (green c), byte_of (blue c) with
  | Some r, Some g, Some b => Some [r; g; b]
  | _, _, _ => None
  end.
(** rgb.gray, l.147-148: the argument given to gray *)
Definition gray_value (c : rgb) : spec_float :=
  fadd (fadd (fmul (literal 3 10) (red c)) (fmul (literal 59 100) (green c))) (fmul (literal 11 100) (blue c)).

(** ** binascii.b2a_hex and binascii.a2b_hex *)
Definition hexdigit (v : Z) : ascii :=
  ascii_of_nat (Z.to_nat (if v <? 10 then 48 + v else 87 + v)).
Definition hexvalue (c : ascii) : option Z :=
  let n := Z.of_nat (nat_of_ascii c) in
  if (48 <=? n) && (n <=? 57) then Some (n - 48)
  else if (97 <=? n) && (n <=? 102) then Some (n - 87)
  else if (65 <=? n) && (n <=? 70) then Some (n - 55)
  else None.
Definition b2a_hex (l : list Z) : list ascii := flat_map (fun v => [hexdigit (v / 16); hexdigit (v mod 16)]) l.
Fixpoint a2b_hex (l : list ascii) : option (list Z) :=
  match l with
  | [] => Some []
  | [_] => None
  | a :: b :: r => match hexvalue a, hexvalue b, a2b_hex r with
                   | Some x, Some y, Some t => Some (16 * x + y :: t)
                   | _, _, _ => None
                   end
  end.
(** tohexstring, l.164-170 *)
Definition tohexstring (c : rgb) (cssstrip addhash : bool) : option (list ascii) :=
  match to8bitbytes c with
  | None => None
  | Some l =>
    let hexstring := b2a_hex l in
    let at_ i := nth i hexstring Ascii.zero in
    let hexstring := if cssstrip && Ascii.eqb (at_ 0%nat) (at_ 1%nat) && Ascii.eqb (at_ 2%nat) (at_ 3%nat) && Ascii.eqb (at_ 4%nat) (at_ 5%nat)
                     then [at_ 0%nat; at_ 2%nat; at_ 4%nat] else hexstring in
    Some (if addhash then "#"%char :: hexstring else hexstring)
  end.
(** str.strip and str.lstrip("#") on ASCII characters *)
Definition is_space (c : ascii) : bool :=
  let n := nat_of_ascii c in (Nat.leb 9 n && Nat.leb n 13) || (Nat.leb 28 n && Nat.leb n 32).
Fixpoint drop_while {A} (p : A -> bool) (l : list A) : list A :=
  match l with [] => [] | a :: r => if p a then drop_while p r else l end.
Definition strip (l : list ascii) : list ascii := rev (drop_while is_space (rev (drop_while is_space l))).
(** rgbfromhexstring, l.173-179; None for the exceptions *)
Definition rgbfromhexstring (s : list ascii) : option rgb :=
  let h := drop_while (Ascii.eqb "#") (strip s) in
  let at_ i := nth i h Ascii.zero in
  let h6 := if Nat.eqb (List.length h) 3 then Some [at_ 0%nat; at_ 0%nat; at_ 1%nat; at_ 1%nat; at_ 2%nat; at_ 2%nat]
            else if Nat.eqb (List.length h) 6 then Some h else None in
  match h6 with
  | None => None
  | Some h6 => match a2b_hex h6 with
               | Some [r; g; b] => new_rgb (fdiv (flt r) (flt 255)) (fdiv (flt g) (flt 255)) (fdiv (flt b) (flt 255))
               | _ => None
               end
  end.
