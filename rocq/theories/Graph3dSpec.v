(** * What the images of three dimensional graphs should be

    The viewer looks at the origin from the direction [view]; the page is the plane through the origin which is perpendicular to
    it, with [right] and [up] as directions of the page. *)

From Coq Require Import Reals Bool List.
From Verif Require Import Graph3dModel.
Open Scope R_scope.

Definition dot (p q : vec) : R := let '(a, b, c) := p in let '(x, y, z) := q in a * x + b * y + c * z.
Definition add (p q : vec) : vec := let '(a, b, c) := p in let '(x, y, z) := q in (a + x, b + y, c + z).
Definition scaled (t : R) (p : vec) : vec := let '(a, b, c) := p in (t * a, t * b, t * c).
Definition sub (p q : vec) : vec := add p (scaled (-1) q).
Definition cross (p q : vec) : vec :=
  let '(a, b, c) := p in let '(x, y, z) := q in (b * z - c * y, c * x - a * z, a * y - b * x).

(** spherical coordinates: the azimuth phi and the elevation theta *)
Definition view (phi theta : R) : vec := (cos theta * cos phi, cos theta * sin phi, sin theta).
Definition right (phi : R) : vec := (- sin phi, cos phi, 0).
Definition up (phi theta : R) : vec := cross (view phi theta) (right phi).
(** the point of the space at a position of the page *)
Definition on_page (phi theta : R) (q : R * R) : vec := add (scaled (fst q) (right phi)) (scaled (snd q) (up phi theta)).
Definition eye (distance phi theta : R) : vec := scaled distance (view phi theta).

(** the point is in front of the viewer *)
Definition in_front (p : projector) (v : vec) : Prop :=
  match p with Central distance phi theta => dot (view phi theta) v < distance | Parallel _ _ => True end.
(** [q] is the point of the page which is seen at the same place as [v] *)
Definition seen_at (p : projector) (v : vec) (q : R * R) : Prop :=
  match p with
  | Central distance phi theta =>
      exists t, 0 < t /\ on_page phi theta q = add (eye distance phi theta) (scaled t (sub v (eye distance phi theta)))
  | Parallel phi theta => exists t, on_page phi theta q = add v (scaled t (view phi theta))
  end.
(** [v] is between the viewer and [w] *)
Definition covers (p : projector) (v w : vec) : Prop :=
  match p with
  | Central distance phi theta =>
      exists t, 0 < t < 1 /\ v = add (eye distance phi theta) (scaled t (sub w (eye distance phi theta)))
  | Parallel phi theta => exists t, 0 < t /\ v = add w (scaled t (view phi theta))
  end.
(** the viewer is on that side of the plane through [v] to which [n] points *)
Definition faces (p : projector) (v n : vec) : Prop :=
  match p with
  | Central distance phi theta => 0 < dot (sub (eye distance phi theta) v) n
  | Parallel phi theta => 0 < dot (view phi theta) n
  end.

(** points in between *)
Definition between (v w : vec) (t : R) : vec := add (scaled (1 - t) v) (scaled t w).
Definition between2 (p q : R * R) (t : R) : R * R := ((1 - t) * fst p + t * fst q, (1 - t) * snd p + t * snd q).
(** twice the area of a triangle of the page; it is positive when the points go around counterclockwise *)
Definition area (p q r : R * R) : R := (fst q - fst p) * (snd r - snd p) - (snd q - snd p) * (fst r - fst p).

(** positions within the graph *)
Definition unit_range (x : R) : Prop := 0 <= x <= 1.
Definition in_graph (v : vec) : Prop := let '(x, y, z) := v in unit_range x /\ unit_range y /\ unit_range z.
