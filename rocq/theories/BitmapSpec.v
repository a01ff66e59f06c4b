(** Reference semantics for bitmap data, independent of the code:
    the ASCII85Decode filter of the PostScript Language Reference (3.13.3),
    pixels, PNG scan lines. *)
From Coq Require Import ZArith Bool List.
Import ListNotations.
Open Scope Z_scope.

Definition isbyte (b : Z) := 0 <= b < 256.

Definition whitespace (c : Z) : bool := existsb (Z.eqb c) [0; 9; 10; 12; 13; 32].

Definition digit85 (c : Z) : bool := (33 <=? c) && (c <=? 117).

Definition val85 (ds : list Z) : Z := fold_left (fun v c => v * 85 + (c - 33)) ds 0.

(** the four bytes of a 32 bit number, high order first *)
Definition bytes4 (v : Z) : list Z :=
  [v / 16777216; v / 65536 mod 256; v / 256 mod 256; v mod 256].

(** a group of five digits, or of 2..4 digits padded with u (=117) *)
Definition group (ds : list Z) (n : nat) : option (list Z) :=
  if forallb digit85 ds && (val85 ds <? 4294967296) then Some (firstn n (bytes4 (val85 ds))) else None.

Definition app_opt (a b : option (list Z)) : option (list Z) :=
  match a, b with Some x, Some y => Some (x ++ y) | _, _ => None end.

(** decoding a text without white space; 122 is the letter z *)
Fixpoint decode_groups (cs : list Z) : option (list Z) :=
  match cs with
  | [] => Some []
  | c1 :: cs1 =>
      if c1 =? 122 then app_opt (Some [0; 0; 0; 0]) (decode_groups cs1)
      else match cs1 with
           | [] => None
           | [c2] => group [c1; c2; 117; 117; 117] 1
           | [c2; c3] => group [c1; c2; c3; 117; 117] 2
           | [c2; c3; c4] => group [c1; c2; c3; c4; 117] 3
           | c2 :: c3 :: c4 :: c5 :: rest => app_opt (group [c1; c2; c3; c4; c5] 4) (decode_groups rest)
           end
  end.

Definition ascii85decode (text : list Z) : option (list Z) :=
  decode_groups (filter (fun c => negb (whitespace c)) text).

(** number of newline terminated lines *)
Definition lines (text : list Z) : Z := Z.of_nat (length (filter (Z.eqb 10) text)).

(** a PNG reader for filter type 0: every line starts with the filter byte *)
Fixpoint png_unfilter (linelen height : nat) (raw : list Z) : option (list Z) :=
  match height with
  | O => match raw with [] => Some [] | _ => None end
  | S h => match raw with
           | 0 :: r => option_map (fun rest => firstn linelen r ++ rest) (png_unfilter linelen h (skipn linelen r))
           | _ => None
           end
  end.
