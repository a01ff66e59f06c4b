(** Circular arcs. *)
From Coq Require Import Reals.
Open Scope R_scope.

Local Notation pt := (R * R)%type.
Definition circle_point (x y r phi : R) : pt := (x + r * cos phi, y + r * sin phi).
Definition rad (degrees : R) : R := degrees * PI / 180.
(** the angle at which an arc drawn counterclockwise from [phi1] ends at [phi2]: [phi2],
    with whole turns added if it is below [phi1] *)
Definition arc_end (phi1 phi2 e : R) : Prop :=
  (phi1 <= phi2 /\ e = phi2) \/ (phi2 < phi1 /\ (exists k : Z, e = phi2 + IZR k * (2 * PI)) /\ phi1 < e <= phi1 + 2 * PI).
(** the points of the arc *)
Definition on_arc (x y r angle1 angle2 : R) (p : pt) : Prop :=
  exists e phi, arc_end (rad angle1) (rad angle2) e /\ rad angle1 <= phi <= e /\ p = circle_point x y r phi.
