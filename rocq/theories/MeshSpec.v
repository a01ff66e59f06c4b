(** What a mesh written as a shading should mean, following the description of shadings of type 4 in
    the PDF Reference (free-form Gouraud-shaded triangle meshes): a reader of the data. *)
From Coq Require Import Reals ZArith List.
Import ListNotations.
Open Scope R_scope.

(** a vertex: the edge flag, the coordinates and the color components *)
Record vertex := mkvertex { flag : Z; vx : R; vy : R; vcolor : list R }.

(** Decode: an integer of [bits] bits runs linearly from one limit to the other *)
Definition decode (lo hi : R) (bits n : Z) : R := lo + IZR n * (hi - lo) / IZR (2 ^ bits - 1).
Definition number24 (a b c : Z) : Z := (a * 65536 + b * 256 + c)%Z.
Fixpoint decode_colors (limits : list R) (bytes : list Z) : list R :=
  match limits, bytes with
  | lo :: hi :: limits', b :: bytes' => decode lo hi 8 b :: decode_colors limits' bytes'
  | _, _ => []
  end.
(** The vertices of a stream with [k] color components: a flag of 8 bits, two coordinates of 24 bits and
    the components of 8 bits each.  None if the data ends within a vertex. *)
Fixpoint vertices (fuel : nat) (limits : list R) (k : nat) (bytes : list Z) : option (list vertex) :=
  match fuel, bytes, limits with
  | _, [], _ => Some []
  | S fuel', f :: x1 :: x2 :: x3 :: y1 :: y2 :: y3 :: rest, xlo :: xhi :: ylo :: yhi :: climits =>
      if Nat.leb k (length rest) then
        option_map (cons (mkvertex f (decode xlo xhi 24 (number24 x1 x2 x3)) (decode ylo yhi 24 (number24 y1 y2 y3)) (decode_colors climits (firstn k rest))))
                   (vertices fuel' limits k (skipn k rest))
      else None
  | _, _, _ => None
  end.

(** [y] is less than a quantisation step of [lo, hi] in [bits] bits below [x], within the limits, and
    equal to [x] at the limits *)
Definition within_step (lo hi : R) (bits : Z) (x y : R) : Prop :=
  y <= x /\ x - y < (hi - lo) / IZR (2 ^ bits - 1) /\ lo <= y <= hi /\ (x = lo -> y = lo) /\ (x = hi -> y = hi).
(** smallest and largest member of a list *)
Definition smallest (x : R) (l : list R) : Prop := In x l /\ forall y, In y l -> x <= y.
Definition largest (x : R) (l : list R) : Prop := In x l /\ forall y, In y l -> y <= x.
