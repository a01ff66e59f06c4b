(** The parameters of points at given arc lengths on Bezier curves (pyx/normpath.py). *)
From Coq Require Import Reals List Lra.
From Verif Require Import CurveModel RootsModel.
Import ListNotations.
Open Scope R_scope.

Local Notation pt := (R * R)%type.

(** params.sort(key=lambda t: abs(t-0.5)) and params[0], l.750-751: the first of those
    closest to 0.5, as the sort is stable *)
Definition closest (r : R) (rs : list R) : R :=
  fold_left (fun best t => if Rlt_dec (Rabs (t - 1 / 2)) (Rabs (best - 1 / 2)) then t else best) rs r.
(** subparamtoparam of the lines replacing curves, l.740-756, without the factor 0.5; [None]
    is the IndexError of params[0] for no roots. *)
Definition piece_param (l1 l2 l3 param : R) : option R :=
  if Rle_dec 0 param then
    if Rle_dec param 1 then
      match realpolyroots [l1 - 2 * l2 + l3; - (3) * l1 + 3 * l2; 3 * l1; - param * (l1 + l2 + l3)] with
      | Some (r :: rs) => Some (closest r rs)
      | _ => None
      end
    else Some param
  else Some param.
(** _arclentoparam_pt of a curve, l.488-499, for one of the lengths (they do not depend on each
    other), with subcurve of _split, l.425-444, 475, _arclentoparam_pt of a line, l.173-176,
    and subparamtoparam of the four classes of replacements, l.740-790: the parameter and
    the arc length.  [None] when [fuel] levels of recursion are not enough, for the
    ZeroDivisionError of l.176 and the IndexError of l.751. *)
Fixpoint curve_param (fuel : nat) (c : pt * pt * pt * pt) (epsilon length : R) : option (R * R) :=
  match fuel with
  | O => None
  | S f =>
      let '(p0, p1, p2, p3) := c in
      let '(a, b) := split p0 p1 p2 p3 (1 / 2) in
      let sub := fun d len =>
        if Rlt_dec (polygon d - chord d) epsilon then
          if Req_EM_T (chord d) 0 then None else Some (len / chord d, chord d)
        else curve_param f d (1 / 2 * epsilon) len in
      let conv := fun d param =>
        if Rlt_dec (polygon d - chord d) epsilon then
          let '(q0, q1, q2, q3) := d in piece_param (dist q0 q1) (dist q1 q2) (dist q2 q3) param
        else Some param in
      match sub a length with
      | None => None
      | Some (param_a, arclen_a) =>
          match sub b (length - arclen_a) with
          | None => None
          | Some (param_b, arclen_b) =>
              match (if Rgt_dec length arclen_a then option_map (fun p => 1 / 2 + 1 / 2 * p) (conv b param_b)
                     else option_map (fun p => 1 / 2 * p) (conv a param_a)) with
              | None => None
              | Some param => Some (param, arclen_a + arclen_b)
              end
          end
      end
  end.
