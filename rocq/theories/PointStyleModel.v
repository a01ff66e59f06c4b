(** Model of the styles which draw something at each point of the data (pyx/graph/style.py): symbols (l.397-432), impulses (l.666-713),
    error bars (l.722-803), arrows (l.876-938) and rectangles (l.942-980).

    Positions in the graph are real numbers where 0 and 1 are the boundaries of the graph; None is a value which could not be converted.
    Attributes and the canvases on which the paths are put are not modelled, nor the geometry of the graph: a geodesic is given by the
    positions of its ends. *)
From Coq Require Import Reals Bool List.
From Verif Require Import RangeModel GraphLineModel.
Import ListNotations.
Open Scope R_scope.

(** ** errorbar, l.722-803 *)
(** sharedata.vpos[j] < -self.epsilon or sharedata.vpos[j] > 1+self.epsilon, l.758-759 *)
Definition outside (epsilon v : R) : bool := ltb v (- epsilon) || ltb (1 + epsilon) v.
(** the loop over j which ends without break, l.755-760 *)
Definition others_inside (epsilon : R) (vpos : list (option R)) (i : nat) : bool :=
  forallb (fun j => Nat.eqb i j || match nth j vpos None with Some v => negb (outside epsilon v) | None => false end) (seq 0 (length vpos)).

(** what is stroked: geodesics between two positions and caps in the direction of a dimension *)
Inductive stroke := Geodesic (a b : list (option R)) | Cap (j : nat) (a : list (option R)).

(** drawpoint for one dimension i, l.762-796.  The end and whether it gets a cap, None for continue. *)
Definition lower_end (epsilon : R) (range pos : option R) : option (R * bool) :=
  match (match range with Some v => Some (v, true) | None => match pos with Some v => Some (v, false) | None => None end end) with
  | Some (v, cap) => if ltb (1 + epsilon) v then None else if ltb v (- epsilon) then Some (0, false) else Some (v, cap)
  | None => None
  end.
Definition upper_end (epsilon : R) (range pos : option R) : option (R * bool) :=
  match (match range with Some v => Some (v, true) | None => match pos with Some v => Some (v, false) | None => None end end) with
  | Some (v, cap) => if ltb v (- epsilon) then None else if ltb (1 + epsilon) v then Some (1, false) else Some (v, cap)
  | None => None
  end.
Definition is_none {A} (o : option A) : bool := match o with None => true | Some _ => false end.
Definition errorbar_dim (epsilon : R) (vpos : list (option R)) (vrange : list (option R * option R)) (i : nat) : list stroke :=
  if negb (others_inside epsilon vpos i) then []
  else
    let '(lo, hi) := nth i vrange (None, None) in
    let p := nth i vpos None in
    if (is_none lo && is_none p) || (is_none hi && is_none p) || (is_none lo && is_none hi) then []
    else match lower_end epsilon lo p, upper_end epsilon hi p with
    | Some (a, mincap), Some (b, maxcap) =>
        let vminpos := set_nth i vpos (Some a) in
        let vmaxpos := set_nth i vpos (Some b) in
        Geodesic vminpos vmaxpos ::
        flat_map (fun j => if Nat.eqb i j then [] else (if mincap then [Cap j vminpos] else []) ++ (if maxcap then [Cap j vmaxpos] else [])) (seq 0 (length vpos))
    | _, _ => []
    end.
(** drawpoint, l.757-799 *)
Definition errorbar_point (epsilon : R) (vpos : list (option R)) (vrange : list (option R * option R)) : list stroke :=
  flat_map (errorbar_dim epsilon vpos vrange) (seq 0 (length vpos)).

(** ** rect, drawpoint, l.957-980: the corners of the closed path in graph coordinates, None when nothing is filled *)
Definition rect_point (xrange yrange : option R * option R) : option (list (R * R)) :=
  match xrange, yrange with
  | (Some xvmin, Some xvmax), (Some yvmin, Some yvmax) =>
      if ltb xvmin 1 && ltb 0 xvmax && ltb yvmin 1 && ltb 0 yvmax then
        let '(xvmin, xvmax) := if ltb xvmin 0 then (0, xvmax) else if ltb 1 xvmax then (xvmin, 1) else (xvmin, xvmax) in
        let '(yvmin, yvmax) := if ltb yvmin 0 then (0, yvmax) else if ltb 1 yvmax then (yvmin, 1) else (yvmin, yvmax) in
        Some [(xvmin, yvmin); (xvmax, yvmin); (xvmax, yvmax); (xvmin, yvmax); (xvmin, yvmin)]
      else None
  | _, _ => None
  end.

(** ** arrow, drawpoint, l.910-934: the ends of the line, for valid positions and numbers *)
Definition arrow_line (epsilon arrowpos linelength_pt x_pt y_pt angle size : R) : option ((R * R) * (R * R)) :=
  if ltb epsilon size then
    let dx := cos (angle * PI / 180) in
    let dy := sin (angle * PI / 180) in
    Some ((x_pt - arrowpos * dx * linelength_pt * size, y_pt - arrowpos * dy * linelength_pt * size),
          (x_pt + (1 - arrowpos) * dx * linelength_pt * size, y_pt + (1 - arrowpos) * dy * linelength_pt * size))
  else None.

(** ** impulses, initdrawpoints l.692-705 (the converted fromvalue, None for fromvalue=None) and drawpoint, l.715-719 *)
Definition impulse_from (vfromvalue : option R) : R :=
  match vfromvalue with
  | Some v => let v := if ltb v 0 then 0 else v in if ltb 1 v then 1 else v
  | None => 0
  end.
Definition impulse_point (epsilon : R) (valueaxisindex : nat) (vfromvalue : option R) (vpos : list R) : option (list R * list R) :=
  if valid epsilon vpos then Some (set_nth valueaxisindex vpos (impulse_from vfromvalue), vpos) else None.

(** ** the symbols, l.397-432: the lines of crosses and plus signs, the corners of the polygons, the radius of the circle *)
Definition cross_lines (x y size : R) : list ((R * R) * (R * R)) :=
  [((x - 0.5 * size, y - 0.5 * size), (x + 0.5 * size, y + 0.5 * size)); ((x - 0.5 * size, y + 0.5 * size), (x + 0.5 * size, y - 0.5 * size))].
Definition plus_lines (x y size : R) : list ((R * R) * (R * R)) :=
  [((x - 0.707106781 * size, y), (x + 0.707106781 * size, y)); ((x, y - 0.707106781 * size), (x, y + 0.707106781 * size))].
Definition square_corners (x y size : R) : list (R * R) :=
  [(x - 0.5 * size, y - 0.5 * size); (x + 0.5 * size, y - 0.5 * size); (x + 0.5 * size, y + 0.5 * size); (x - 0.5 * size, y + 0.5 * size)].
Definition triangle_corners (x y size : R) : list (R * R) :=
  [(x - 0.759835685 * size, y - 0.438691337 * size); (x + 0.759835685 * size, y - 0.438691337 * size); (x, y + 0.877382675 * size)].
Definition circle_radius (size : R) : R := 0.564189583 * size.
Definition diamond_corners (x y size : R) : list (R * R) :=
  [(x - 0.537284965 * size, y); (x, y - 0.930604859 * size); (x + 0.537284965 * size, y); (x, y + 0.930604859 * size)].
