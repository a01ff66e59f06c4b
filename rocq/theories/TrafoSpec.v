(** Geometric notions for transformations of the plane. *)
From Coq Require Import Reals List.
Open Scope R_scope.

Definition point := (R * R)%type.
Definition padd (p q : point) : point := (fst p + fst q, snd p + snd q).
Definition psub (p q : point) : point := (fst p - fst q, snd p - snd q).
Definition dot (p q : point) : R := fst p * fst q + snd p * snd q.
(** area spanned by two vectors, positive if counterclockwise *)
Definition cross (p q : point) : R := fst p * snd q - snd p * fst q.
(** unit vector of a direction given in degrees *)
Definition direction (angle : R) : point := (cos (PI * angle / 180), sin (PI * angle / 180)).

(** f is the rotation by the angle (degrees, counterclockwise) around c: for every
    offset from c, length is kept and the angle of the image to the offset is the angle *)
Definition is_rotation (f : point -> point) (angle : R) (c : point) : Prop :=
  forall p, let u := psub p c in let v := psub (f p) c in
    dot v v = dot u u /\ dot u v = dot u u * fst (direction angle) /\ cross u v = dot u u * snd (direction angle).

(** f is the reflection at the line through the origin with the direction n: it keeps the component along the
    direction and negates the perpendicular one *)
Definition is_reflection (f : point -> point) (n : point) : Prop :=
  forall p, dot n (f p) = dot n p /\ cross n (f p) = - cross n p.

(** Meaning of six numbers a b c d e f in PostScript and PDF: the image of the point (x, y) is
    the row vector (x, y, 1) times the matrix with rows (a, b), (c, d), (e, f).  The
    matrix function of SVG means the same. *)
Definition rowmatrix (m : R * R * R * R * R * R) (p : point) : point :=
  match m with (a, b, c, d, e, f) => (a * fst p + c * snd p + e, b * fst p + d * snd p + f) end.
(** The y axis of SVG points downwards. *)
Definition flip (p : point) : point := (fst p, - snd p).
