(** Big-endian integers and texts made of tokens. *)
From Coq Require Import ZArith List Bool.
Import ListNotations.
Open Scope Z_scope.

Definition isbyte (b : Z) : Prop := 0 <= b < 256.
(** the n bytes of v, most significant first; two's complement for negative v *)
Fixpoint bigendian (n : nat) (v : Z) : list Z :=
  match n with O => [] | S n' => (v / 256 ^ Z.of_nat n') mod 256 :: bigendian n' v end.
(** the values that n bytes can represent *)
Definition inrange (signed : bool) (n : nat) (v : Z) : Prop :=
  if signed then - 256 ^ Z.of_nat n <= 2 * v < 256 ^ Z.of_nat n else 0 <= v < 256 ^ Z.of_nat n.

(** ** Tokens, for the character classes of PostScript *)
Definition white (c : Z) : Prop := c = 32 \/ c = 9 \/ c = 13 \/ c = 10.
Definition eol (c : Z) : Prop := c = 13 \/ c = 10.
(** ( ) < > [ ] { } / % *)
Definition delimiter (c : Z) : Prop := In c [40; 41; 60; 62; 91; 93; 123; 125; 47; 37].

(** white space and comments (which run to the end of the line) *)
Inductive gap : list Z -> Prop :=
| gap_nil : gap []
| gap_white c g : white c -> gap g -> gap (c :: g)
| gap_comment text e g : (forall c, In c text -> ~ eol c) -> eol e -> gap g -> gap (37 :: text ++ e :: g).

(** a token: no white space, a delimiter at most at the first place, no comment *)
Definition token (t : list Z) : Prop :=
  exists c t', t = c :: t' /\ c <> 37 /\ ~ white c /\ forall d, In d t' -> ~ white d /\ ~ delimiter d.

(** tokens separated by gaps; nothing may be between two tokens only if the second one
    starts with a delimiter *)
Inductive written : list (list Z) -> list Z -> Prop :=
| written_nil : written [] []
| written_cons g t ts d : gap g -> token t -> written ts d -> separated ts d -> written (t :: ts) (g ++ t ++ d)
with separated : list (list Z) -> list Z -> Prop :=
| separated_end : separated [] []
| separated_by t ts c d : white c \/ delimiter c -> separated (t :: ts) (c :: d).
