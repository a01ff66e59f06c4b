(** Polynomials: the coefficients are given from the highest power downwards. *)
From Coq Require Import Reals List.
Import ListNotations.
Open Scope R_scope.

(** the value of the polynomial *)
Fixpoint peval (cs : list R) (x : R) : R :=
  match cs with [] => 0 | c :: cs' => c * x ^ length cs' + peval cs' x end.
(** the list contains exactly the real roots *)
Definition exactly_roots (rs : list R) (cs : list R) : Prop := forall x, In x rs <-> peval cs x = 0.
