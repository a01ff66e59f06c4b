(** * What a two dimensional graph should do (C107), stated without the functions of the model *)

From Coq Require Import Reals Bool List Arith.
Import ListNotations.
Open Scope R_scope.

(** A point on the line from p to q *)
Definition on_line (p q r : R * R) : Prop :=
  exists t, 0 <= t <= 1 /\ r = (fst p + t * (fst q - fst p), snd p + t * (snd q - snd p)).
(** The unit square in the coordinates of the graph *)
Definition inside (v : R * R) : Prop := 0 <= fst v <= 1 /\ 0 <= snd v <= 1.
(** The pair with the coordinate c (0 or 1) being a and the other coordinate being b *)
Definition coords (c : nat) (a b : R) : R * R := match c with 0%nat => (a, b) | _ => (b, a) end.
(** The numbers on which an axis depends: n, n - 2, ..., down to 1 or 2 *)
Inductive chain : nat -> nat -> Prop :=
| chain_self : forall n, chain n n
| chain_next : forall n m, chain n m -> chain (S (S n)) m.
