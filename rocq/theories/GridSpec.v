(** * What density graphs should show

    The points of the data are on a grid: the coordinates of any two points in one direction are either the same up to [epsilon] or
    different.  Each pixel of the image shows the last point of the data at its position. *)

From Coq Require Import Reals Bool List.
Import ListNotations.
Open Scope R_scope.

Definition near (epsilon a b : R) : Prop := Rabs (a - b) <= epsilon.
(** no two values are the same up to [epsilon] *)
Definition apart (epsilon : R) (l : list R) : Prop :=
  forall i j a b, nth_error l i = Some a -> nth_error l j = Some b -> i <> j -> ~ near epsilon a b.
(** being the same up to [epsilon] is an equivalence for these values *)
Definition clustered (epsilon : R) (l : list R) : Prop :=
  forall a b c, In a l -> In b l -> In c l -> near epsilon a b -> near epsilon b c -> near epsilon a c.

Section Spec.
  Variable C : Type.
  (** points (x, y, color) *)
  Definition here (epsilon a b : R) (p : R * R * C) : Prop := near epsilon (fst (fst p)) a /\ near epsilon (snd (fst p)) b.
  (** what the last point of [ps] at (a, b) shows *)
  Definition shows (epsilon a b : R) (ps : list (R * R * C)) (c : option C) : Prop :=
    match c with
    | Some c => exists ps1 x y ps2, ps = ps1 ++ (x, y, c) :: ps2 /\ here epsilon a b (x, y, c) /\ Forall (fun p => ~ here epsilon a b p) ps2
    | None => Forall (fun p => ~ here epsilon a b p) ps
    end.
End Spec.

(** planar graphs and the axis planes of parallel projections: the positions are affine in the coordinates *)
Definition affine (vpos : R -> R -> R * R) : Prop :=
  exists px py qx qy sx sy, forall u v, vpos u v = (px + u * qx + v * sx, py + u * qy + v * sy).
