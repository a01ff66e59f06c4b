(** What arrows, texts, hatchings and color gradients at paths are, stated without the helpers of the model. *)
From Coq Require Import Reals List Bool.
From Verif Require Import BoxModel DecoModel.
Import ListNotations.
Open Scope R_scope.

Definition starts (p : piece) : point := ppoint p 0.
Definition ends (p : piece) : point := ppoint p (plength p).
(** each piece starts where the piece before ends *)
Fixpoint joined (l : list piece) : Prop :=
  match l with
  | a :: (b :: _) as r => ends a = starts b /\ joined r
  | _ => True
  end.
Definition distance (p q : point) : R := sqrt ((px q - px p) * (px q - px p) + (py q - py p) * (py q - py p)).
(** the straight path from a in the direction u *)
Definition along (a u : point) (s : R) : point := (px a + s * px u, py a + s * py u).
Definition middle (p q : point) : point := ((px p + px q) / 2, (py p + py q) / 2).
(** q turned by the angle a (radians) about c is p *)
Definition turned (a : R) (c q p : point) : Prop :=
  px p - px c = cos a * (px q - px c) - sin a * (py q - py c) /\ py p - py c = sin a * (px q - px c) + cos a * (py q - py c).
(** the frame of a path at a point [o] with the unit tangent [u]: the first coordinate along the path, the second to the left of it *)
Definition frame (o u p : point) : point := (px o + px p * px u - py p * py u, py o + px p * py u + py p * px u).
(** what is seen at the arc length x after all strokes: the last one there *)
Definition covers {A} (x : R) (s : R * R * A) : Prop := Rmin (fst (fst s)) (snd (fst s)) <= x <= Rmax (fst (fst s)) (snd (fst s)).
Definition seen {A} (l : list (R * R * A)) (x : R) (c : A) : Prop :=
  exists before s after, l = before ++ s :: after /\ covers x s /\ snd s = c /\ forall s', In s' after -> ~ covers x s'.
