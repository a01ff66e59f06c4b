(** The format of PFB files, hexadecimal texts and encoding vectors. *)
From Coq Require Import ZArith List Bool.
Import ListNotations.
Open Scope Z_scope.

(** a segment: 128, the type, the length as four bytes, the least significant one first, and the data *)
Definition four (n : Z) : list Z := [n mod 256; n / 256 mod 256; n / 65536 mod 256; n / 16777216 mod 256].
Definition segment (type : Z) (d : list Z) : list Z := 128 :: type :: four (Z.of_nat (length d)) ++ d.
Definition fits (d : list Z) : Prop := Z.of_nat (length d) < 4294967296.
(** a font: clear text, binary segments, clear text, end of file *)
Definition pfb (d1 : list Z) (ds : list (list Z)) (d3 : list Z) : list Z :=
  segment 1 d1 ++ flat_map (segment 2) ds ++ segment 1 d3 ++ [128; 3].
Definition isbyte (b : Z) : Prop := 0 <= b < 256.
(** hexadecimal digits (of lower case) of bytes *)
Fixpoint hex_of (s b : list Z) : Prop :=
  match s, b with
  | [], [] => True
  | x :: y :: s', c :: b' => (exists h l, 0 <= h < 16 /\ 0 <= l < 16 /\ c = 16 * h + l /\ nth_error [48; 49; 50; 51; 52; 53; 54; 55; 56; 57; 97; 98; 99; 100; 101; 102] (Z.to_nat h) = Some x /\
      nth_error [48; 49; 50; 51; 52; 53; 54; 55; 56; 57; 97; 98; 99; 100; 101; 102] (Z.to_nat l) = Some y) /\ hex_of s' b'
  | _, _ => False
  end.
(** the entry of an encoding vector: the last one for the code counts *)
Fixpoint last_entry (l : list (Z * list Z)) (i : Z) : option (list Z) :=
  match l with
  | [] => None
  | (j, n) :: l' => match last_entry l' i with Some m => Some m | None => if j =? i then Some n else None end
  end.
