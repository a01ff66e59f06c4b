(** Circular arcs of SVG and tangent arcs, independent of pyx. *)
From Coq Require Import Reals List.
From Verif Require Import ArcSpec PathModel PathSpec.
Import ListNotations.
Open Scope R_scope.

Local Notation pt := (R * R)%type.

(** The arc command of SVG with equal radii (SVG 1.1, section 8.3.8 and appendix F.6): from
    [p] to [q] on the circle of radius [r] around [c] from the angle [a] to the angle [b] with
    angles increasing if and only if [sweep] is set, by more than half a turn if and only if
    [large] is set. *)
Definition svg_arc (p q : pt) (r : R) (large sweep : bool) (c : pt) (a b : R) : Prop :=
  p = circle_point (fst c) (snd c) r a /\ q = circle_point (fst c) (snd c) r b /\
  (if sweep then a < b < a + 2 * PI else a - 2 * PI < b < a) /\ (large = true <-> PI < Rabs (b - a)).

(** The commands draw, from the point [p], the circle of radius [r] around [c] from the
    angle [a] to the angle [b]. *)
Fixpoint arcs_along (r : R) (p c : pt) (a : R) (ops : list op) (b : R) : Prop :=
  match ops with
  | [] => a = b
  | OA r' large sweep q :: ops' => r' = r /\ exists m, svg_arc p q r large sweep c a m /\ arcs_along r q c m ops' b
  | _ => False
  end.

(** the end of an arc in degrees, as in [arc_end], and the same with whole turns dropped
    beyond the second one *)
Definition turns (a b : R) : Prop := exists k : Z, b = a + IZR k * 360.
Definition arc_stop (a1 a2 e : R) : Prop :=
  turns a2 e /\ (a1 <= a2 <= a1 + 360 -> e = a2) /\ (a2 < a1 -> a1 < e <= a1 + 360) /\ (a1 + 360 < a2 -> a1 + 360 <= e < a1 + 720).

Definition vec (p q : pt) : pt := (fst q - fst p, snd q - snd p).
Definition cross (u v : pt) : R := fst u * snd v - snd u * fst v.
Definition dot (u v : pt) : R := fst u * fst v + snd u * snd v.
Definition distance (p q : pt) : R := sqrt (dot (vec p q) (vec p q)).
