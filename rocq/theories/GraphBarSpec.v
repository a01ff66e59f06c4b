(** * What bars in graphs should be (C102, C103) *)

From Coq Require Import Reals Bool List.
From Verif Require Import Graph3dModel Graph3dSpec GraphBarModel.
Import ListNotations.
Open Scope R_scope.

(** the position is in between the two ends of the bar, whichever is larger, and within the graph *)
Definition along_bar (r : option R * option R) (v : R) : Prop :=
  exists a b, r = (Some a, Some b) /\ (a <= v <= b \/ b <= v <= a) /\ 0 <= v <= 1.

(** the nested name as the list of names from outside to inside *)
Fixpoint names (n : name) : list name := match n with Atom _ => [n] | Pair a b => a :: names b end.

(** the sum of all values; None if one is missing *)
Definition sum_all (l : list (option R)) : option R :=
  fold_left (fun acc x => match acc, x with Some a, Some b => Some (a + b) | _, _ => None end) l (Some 0).

(** ** Bars in three dimensional graphs *)
Definition inside (r : R * R) (v : R) : Prop := fst r <= v <= snd r.
Definition in_bar (b : (R * R) * (R * R) * (R * R)) (v : vec) : Prop :=
  let '(x, y, z) := b in let '(vx, vy, vz) := v in inside x vx /\ inside y vy /\ inside z vz.
(** the sides of a bar, named like the planes of the graph *)
Definition on_side (s : plane) (b : (R * R) * (R * R) * (R * R)) (v : vec) : Prop :=
  let '(x, y, z) := b in let '(vx, vy, vz) := v in
  in_bar b v /\
  match s with PX0 => vx = fst x | PX1 => vx = snd x | PY0 => vy = fst y | PY1 => vy = snd y | PZ0 => vz = fst z | PZ1 => vz = snd z end.
Definition at_end (r : R * R) (v : R) : Prop := v = fst r \/ v = snd r.
Definition vertex (s : plane) (b : (R * R) * (R * R) * (R * R)) (v : vec) : Prop :=
  on_side s b v /\ let '(x, y, z) := b in let '(vx, vy, vz) := v in at_end x vx /\ at_end y vy /\ at_end z vz.
(** two points on a line parallel to an axis *)
Definition axis_parallel (v w : vec) : Prop :=
  let '(x, y, z) := v in let '(a, b, c) := w in (y = b /\ z = c) \/ (x = a /\ z = c) \/ (x = a /\ y = b).
(** the closed line through the corners of the face is the border of the side *)
Definition face_of (s : plane) (b : (R * R) * (R * R) * (R * R)) (f : face) : Prop :=
  let '(v1, v2, v3, v4) := f in
  (forall v, vertex s b v <-> v = v1 \/ v = v2 \/ v = v3 \/ v = v4) /\
  axis_parallel v1 v2 /\ axis_parallel v2 v3 /\ axis_parallel v3 v4 /\ axis_parallel v4 v1.
(** the widths of the side *)
Definition wide (epsilon : R) (r : R * R) : Prop := epsilon < snd r - fst r.
Definition wide_side (epsilon : R) (s : plane) (b : (R * R) * (R * R) * (R * R)) : Prop :=
  let '(x, y, z) := b in
  match s with PX0 | PX1 => wide epsilon y /\ wide epsilon z | PY0 | PY1 => wide epsilon x /\ wide epsilon z | PZ0 | PZ1 => wide epsilon x /\ wide epsilon y end.

(** ** The arrangement of bars *)
Definition apart (r s : R * R) : Prop := snd r < fst s \/ snd s < fst r.
Definition central_widths (p : projector) (r s : R * R) : Prop :=
  match p with Central _ _ _ => snd r - fst r = snd s - fst s | Parallel _ _ => True end.
Definition dimension (b : (R * R) * (R * R) * (R * R)) (i : nat) : R * R :=
  let '(x, y, z) := b in match i with 0%nat => x | 1%nat => y | _ => z end.
(** in all dimensions but that of the values, the bars are at the same place or apart from each other *)
Definition arranged (p : projector) (valueindex : nat) (a b : (R * R) * (R * R) * (R * R)) : Prop :=
  (forall i, (i < 3)%nat -> i <> valueindex -> dimension a i = dimension b i \/ (apart (dimension a i) (dimension b i) /\ central_widths p (dimension a i) (dimension b i))) /\
  exists i, (i < 3)%nat /\ i <> valueindex /\ apart (dimension a i) (dimension b i).

(** a point is within a convex polygon, given by its corners counterclockwise, when it is on the left of all edges *)
Definition edges (l : list (R * R)) : list ((R * R) * (R * R)) :=
  match l with [] => [] | p :: l' => combine l (l' ++ [p]) end.
Definition in_polygon (l : list (R * R)) (p : R * R) : Prop := Forall (fun e => 0 <= area (fst e) (snd e) p) (edges l).
