(** The straight pieces a curve is divided into. *)
From Coq Require Import Reals.
From Verif Require Import CurveSpec.
Open Scope R_scope.

Local Notation pt := (R * R)%type.
Local Notation ctrl := (R * R * (R * R) * (R * R) * (R * R))%type.
Definition middle (p q : pt) : pt := ((fst p + fst q) / 2, (snd p + snd q) / 2).
(** the two halves of a curve *)
Definition first_half (c : ctrl) : ctrl :=
  let '(p0, p1, p2, p3) := c in
  (p0, middle p0 p1, middle (middle p0 p1) (middle p1 p2), middle (middle (middle p0 p1) (middle p1 p2)) (middle (middle p1 p2) (middle p2 p3))).
Definition second_half (c : ctrl) : ctrl :=
  let '(p0, p1, p2, p3) := c in
  (middle (middle (middle p0 p1) (middle p1 p2)) (middle (middle p1 p2) (middle p2 p3)), middle (middle p1 p2) (middle p2 p3), middle p2 p3, p3).
(** by how much the control polygon is longer than the line between the ends *)
Definition excess (c : ctrl) : R :=
  let '(p0, p1, p2, p3) := c in distance p0 p1 + distance p1 p2 + distance p2 p3 - distance p0 p3.
(** the pieces of a curve that are taken as straight: halves with less excess than the
    tolerance, which is halved for further halves *)
Inductive straight_piece : ctrl -> R -> ctrl -> Prop :=
  | piece_here c eps d : d = first_half c \/ d = second_half c -> excess d < eps -> straight_piece c eps d
  | piece_deeper c eps d e : d = first_half c \/ d = second_half c -> eps <= excess d ->
      straight_piece d (eps / 2) e -> straight_piece c eps e.
(** the bound of the length of a piece up to a parameter *)
Definition length_bound (c : ctrl) (t : R) : R :=
  let '(p0, p1, p2, p3) := c in
  distance p0 p1 * (1 - (1 - t) ^ 3) + distance p1 p2 * (3 * t ^ 2 - 2 * t ^ 3) + distance p2 p3 * t ^ 3.
(** the ends differ, and no value of the bound between its ends is taken twice at a double
    root below a simple root *)
Definition solvable (c : ctrl) : Prop :=
  let '(p0, _, _, p3) := c in
  p0 <> p3 /\
  ~ exists k v alpha beta, 0 <= v <= length_bound c 1 /\ alpha < beta /\
      forall t, length_bound c t - v = k * ((t - alpha) ^ 2 * (t - beta)).
