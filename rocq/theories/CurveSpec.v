(** Notions of plane geometry. *)
From Coq Require Import Reals List.
Import ListNotations.
Open Scope R_scope.

Local Notation pt := (R * R)%type.
(** the Bernstein form of a Bezier curve *)
Definition bernstein (x0 x1 x2 x3 t : R) : R :=
  (1 - t) ^ 3 * x0 + 3 * t * (1 - t) ^ 2 * x1 + 3 * t ^ 2 * (1 - t) * x2 + t ^ 3 * x3.
(** Euclidean distance *)
Definition distance (p q : pt) : R := sqrt ((fst p - fst q) ^ 2 + (snd p - snd q) ^ 2).
(** the length of the chain of points of a curve at increasing parameters *)
Fixpoint chain (f : R -> pt) (t : R) (l : list R) : R :=
  match l with
  | [] => 0
  | u :: l' => distance (f t) (f u) + chain f u l'
  end.
Fixpoint increasing (t : R) (l : list R) (last : R) : Prop :=
  match l with
  | [] => t = last
  | u :: l' => t <= u /\ increasing u l' last
  end.
(** arc length: the least upper bound of the lengths of the inscribed chains *)
Definition chain_length (f : R -> pt) (a b x : R) : Prop := exists l, increasing a l b /\ x = chain f a l.
Definition is_arc_length (f : R -> pt) (a b L : R) : Prop := is_lub (chain_length f a b) L.
(** exactly the range of a function on the unit interval *)
Definition exact_range (f : R -> R) (lo hi : R) : Prop :=
  (forall t, 0 <= t <= 1 -> lo <= f t <= hi) /\
  (exists t, 0 <= t <= 1 /\ f t = lo) /\ (exists t, 0 <= t <= 1 /\ f t = hi).
(** the point dividing a segment *)
Definition along (p q : pt) (t : R) : pt := (fst p + t * (fst q - fst p), snd p + t * (snd q - snd p)).
