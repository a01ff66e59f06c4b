(** * How surfaces should be drawn

    A surface is given by data on a grid: the coordinates [index1] and [index2] of a point are its values of the grid.  The elements
    are triangles, and those drawn later cover those drawn before. *)

From Coq Require Import Reals Bool List.
From Verif Require Import Graph3dModel Graph3dSpec.
Import ListNotations.
Open Scope R_scope.

Definition coord (i : nat) (v : vec) : R := let '(a, b, c) := v in match i with O => a | S O => b | _ => c end.
Definition scale_of (g : graphxyz) (i : nat) : R := match i with O => xscale g | S O => yscale g | _ => zscale g end.
(** data on the grid; valid data are within the graph *)
Definition on_grid (index1 index2 : nat) (data : R -> R -> option (bool * bool * vec)) : Prop :=
  forall a b x valid v, data a b = Some (x, valid, v) -> coord index1 v = a /\ coord index2 v = b /\ (valid = true -> in_graph v).
(** points within a triangle *)
Definition in_triangle (t : vec * vec * vec) (p : vec) : Prop :=
  let '(a, b, c) := t in
  exists r s u, 0 < r /\ 0 < s /\ 0 < u /\ r + s + u = 1 /\ p = add (scaled r a) (add (scaled s b) (scaled u c)).
(** the viewer is not between the two planes of the graph in this direction, nor in the plane of the value 0 *)
Definition outside (g : graphxyz) (i : nat) : Prop :=
  match proj g with
  | Central d phi theta => scale_of g i <= coord i (eye d phi theta) \/ coord i (eye d phi theta) < - scale_of g i
  | Parallel _ _ => True
  end.
(** the side of the surface where the other coordinate increases, if [index1] and [index2] are turned to the right hand: this side
    of a triangle is the one where its normal [n] points to *)
Definition front_normal (g : graphxyz) (index1 index2 : nat) (t : vec * vec * vec) (n : vec) : Prop :=
  let '(a, b, c) := t in
  dot n (sub (position g b) (position g a)) = 0 /\ dot n (sub (position g c) (position g a)) = 0 /\
  match index1, index2 with
  | 0%nat, 1%nat => 0 < coord 2 n | 1%nat, 0%nat => coord 2 n < 0
  | 1%nat, 2%nat => 0 < coord 0 n | 2%nat, 1%nat => coord 0 n < 0
  | 2%nat, 0%nat => 0 < coord 1 n | 0%nat, 2%nat => coord 1 n < 0
  | _, _ => False
  end.
