(** The layout of TFM files (Knuth, TeX: The Program, part 30, and the documentation of TFtoPL), and the scaling of
    TFM lengths by TeX (part 30, sections 571 and 572). *)
From Coq Require Import ZArith List Bool.
From Verif Require Import ReaderSpec.
Import ListNotations.
Open Scope Z_scope.

(** word number k of a file is v (a signed 32 bit integer) *)
Definition word (file : list Z) (k v : Z) : Prop :=
  inrange true 4 v /\ firstn 4 (skipn (Z.to_nat (4 * k)) file) = bigendian 4 v.
(** half word number k, the twelve first of which are the lengths of the parts of the file *)
Definition halfword (file : list Z) (k v : Z) : Prop :=
  inrange true 2 v /\ firstn 2 (skipn (Z.to_nat (2 * k)) file) = bigendian 2 v.
(** the words from number k on are the elements of a table *)
Definition words (file : list Z) (k : Z) (tbl : list Z) : Prop :=
  forall i v, nth_error tbl i = Some v -> word file (k + Z.of_nat i) v.

(** "z div 2" while z is at least 2 ** 23, and alpha doubled as often, section 572 *)
Fixpoint tex_start (fuel : nat) (z alpha : Z) : Z * Z :=
  match fuel with
  | O => (z, alpha)
  | S f => if z <? 8388608 then (z, alpha) else tex_start f (z / 2) (alpha + alpha)
  end.
(** section 571: the length with bytes a, b, c, d times z / 2 ** 20, for a = 0 or 255 *)
Definition tex_scaled (z a b c d : Z) : Z :=
  let '(z, alpha) := tex_start 5 z 16 in
  let beta := 256 / alpha in
  let sw := ((d * z / 256 + c * z) / 256 + b * z) / beta in
  if a =? 0 then sw else sw - alpha * z.
