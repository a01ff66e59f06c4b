(** The arc lengths at given parameters of Bezier curves (pyx/normpath.py). *)
From Coq Require Import Reals List.
From Verif Require Import CurveModel.
Import ListNotations.
Open Scope R_scope.

Local Notation pt := (R * R)%type.

(** arclen_pt of lines and curves, l.182-183, 504-506, as in [line_arclen] and [curve_arclen] *)
Definition item_arclen (fuel : nat) (epsilon : R) (i : item) : option R :=
  match i with
  | Line p0 p1 => Some (line_arclen p0 p1)
  | Curve p0 p1 p2 p3 => curve_arclen fuel false (p0, p1, p2, p3) epsilon
  end.
(** the list comprehension of l.585 *)
Fixpoint arclens (fuel : nat) (epsilon : R) (l : list item) : option (list R) :=
  match l with
  | [] => Some []
  | i :: l' => match item_arclen fuel epsilon i, arclens fuel epsilon l' with Some x, Some xs => Some (x :: xs) | _, _ => None end
  end.
(** the sums of l.586-587 *)
Fixpoint sums (acc : R) (l : list R) : list R := match l with [] => [] | x :: l' => (acc + x) :: sums (acc + x) l' end.
(** _paramtoarclen_pt of a curve, l.584-588; [None] when [fuel] levels of recursion are not enough *)
Definition curve_paramtoarclen (fuel : nat) (p0 p1 p2 p3 : pt) (params : list R) (epsilon : R) : option (list R * R) :=
  match item_segments (Curve p0 p1 p2 p3) (0 :: params ++ [1]) with
  | None => None
  | Some segments =>
      match arclens fuel epsilon segments with
      | None => None
      | Some ls => Some (removelast (sums 0 ls), last (sums 0 ls) 0)
      end
  end.
