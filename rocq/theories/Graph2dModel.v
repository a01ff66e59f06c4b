(** * Model of two dimensional graphs: pyx/graph/graph.py l.312-686 (graphxy and graphx: sizes, positions, axes, the place of the key),
    pyx/graph/axis/positioner.py l.79-107 (lineaxispos_pt) and pyx/graph/axis/axis.py l.615-652 (tick points of an axis)

    Floats are reals and lengths are in points.  None stands for an exception.  The painting of an axis is not modelled: its extent
    (axis.canvas.extent_pt) is an arbitrary number for each axis. *)

From Coq Require Import Reals Bool List Arith String Ascii.
Import ListNotations.
Open Scope R_scope.

Definition pt := (R * R)%type.
Definition line := (pt * pt)%type.

(** The attributes of graphxy, l.320-338 *)
Record graph := mkgraph { xpos : R; ypos : R; width : R; height : R; axesdist : R; flipped : bool }.

(** l.330-338: width and height; ratio is None in graphx (l.652), where its use is a TypeError *)
Definition graph_size (w h ratio : option R) : option (R * R) :=
  match w, h with
  | None, None => None
  | None, Some h => match ratio with Some r => Some (r * h, h) | None => None end
  | Some w, None => match ratio with Some r => if Req_EM_T r 0 then None else Some (w, 1.0 / r * w) | None => None end
  | Some w, Some h => Some (w, h)
  end.

(** vpos_pt, l.453-457 (vpos is the same with lengths) *)
Definition vpos (g : graph) (vx vy : R) : pt :=
  let '(vx, vy) := if flipped g then (vy, vx) else (vx, vy) in
  (xpos g + vx * width g, ypos g + vy * height g).
(** pos_pt, l.429-439: with the conversions of the two axes *)
Definition pos (g : graph) (convx convy : R -> R) (x y : R) : pt :=
  let vx := convx x in let vy := convy y in
  let '(vx, vy) := if flipped g then (vy, vx) else (vx, vy) in
  (xpos g + vx * width g, ypos g + vy * height g).
(** vgeodesic, l.471-479: the line_pt as its end points *)
Definition vgeodesic (g : graph) (vx1 vy1 vx2 vy2 : R) : line :=
  let '(vx1, vy1, vx2, vy2) := if flipped g then (vy1, vx1, vy2, vx2) else (vx1, vy1, vx2, vy2) in
  ((xpos g + vx1 * width g, ypos g + vy1 * height g), (xpos g + vx2 * width g, ypos g + vy2 * height g)).
(** vgeodesic_el, l.481-487: the point of the lineto_pt *)
Definition vgeodesic_el (g : graph) (vx1 vy1 vx2 vy2 : R) : pt :=
  let '(vx1, vy1, vx2, vy2) := if flipped g then (vy1, vx1, vy2, vx2) else (vx1, vy1, vx2, vy2) in
  (xpos g + vx2 * width g, ypos g + vy2 * height g).
(** vcap_pt, l.489-506: the coordinate is 0 or 1, all else is a ValueError *)
Definition vcap (g : graph) (coordinate : nat) (length : R) (vx vy : R) : option line :=
  let '(c, vx, vy) := if flipped g then ((if coordinate =? 0 then 1 else if coordinate =? 1 then 0 else coordinate)%nat, vy, vx) else (coordinate, vx, vy) in
  match c with
  | 0%nat => Some ((xpos g + vx * width g - 0.5 * length, ypos g + vy * height g), (xpos g + vx * width g + 0.5 * length, ypos g + vy * height g))
  | 1%nat => Some ((xpos g + vx * width g, ypos g + vy * height g - 0.5 * length), (xpos g + vx * width g, ypos g + vy * height g + 0.5 * length))
  | _ => None
  end.
(** xvgridpath and yvgridpath, l.508-514 *)
Definition xvgridpath (g : graph) (vx : R) : option line :=
  Some ((xpos g + vx * width g, ypos g), (xpos g + vx * width g, ypos g + height g)).
Definition yvgridpath (g : graph) (vy : R) : option line :=
  Some ((xpos g, ypos g + vy * height g), (xpos g + width g, ypos g + vy * height g)).

(** lineaxispos_pt, positioner.py l.79-107 *)
Record positioner := mkpos { x1 : R; y1 : R; x2 : R; y2 : R; fixtickdirection : R * R; vgridpath : R -> option line }.
Definition vtickpoint_pt (p : positioner) (v : R) : pt := ((1 - v) * x1 p + v * x2 p, (1 - v) * y1 p + v * y2 p).
Definition vbasepath (p : positioner) (v1 v2 : option R) : line :=
  let v1 := match v1 with None => 0 | Some v => v end in
  let v2 := match v2 with None => 1 | Some v => v end in
  (((1 - v1) * x1 p + v1 * x2 p, (1 - v1) * y1 p + v1 * y2 p), ((1 - v2) * x1 p + v2 * x2 p, (1 - v2) * y1 p + v2 * y2 p)).

(** axis names: a letter and a number, where "x" is (X, 1) (the name "x1" is not allowed, l.406-408) *)
Inductive letter := X | Y.
(** self.axespositioners, l.415-427; the grid paths are methods of the graph, which graphx overrides: gx and gy *)
Definition axespositioners (g : graph) (gx gy : R -> option line) (a : letter * nat) : option positioner :=
  let px := mkpos (xpos g) (ypos g) (xpos g + width g) (ypos g) (0, 1) gx in
  let px2 := mkpos (xpos g) (ypos g + height g) (xpos g + width g) (ypos g + height g) (0, -1) gx in
  let py := mkpos (xpos g) (ypos g) (xpos g) (ypos g + height g) (1, 0) gy in
  let py2 := mkpos (xpos g + width g) (ypos g) (xpos g + width g) (ypos g + height g) (-1, 0) gy in
  match a with
  | (X, 1%nat) => Some (if flipped g then py2 else px)
  | (X, 2%nat) => Some (if flipped g then py else px2)
  | (Y, 1%nat) => Some (if flipped g then px else py)
  | (Y, 2%nat) => Some (if flipped g then px2 else py2)
  | _ => None
  end.
(** doaxispositioner, l.555-580: the positioner of the axis with number n of a letter.  has tells whether an axis is in self.axes,
    extent is its axis.canvas.extent_pt.  For numbers above 2 the axis depends on the one with the number n - 2; the names "x0" and
    "x-1" which would come next do not exist, which is a KeyError. *)
Fixpoint axis_positioner (g : graph) (gx gy : R -> option line) (has : letter * nat -> bool) (extent : letter * nat -> R) (l : letter) (n : nat)
  {struct n} : option positioner :=
  if has (l, n) then
    match n with
    | 0%nat => None
    | 1%nat | 2%nat => axespositioners g gx gy (l, n)
    | S (S m) =>
        match axis_positioner g gx gy has extent l m with
        | None => None
        | Some p =>
            let sign := 2 * INR (n mod 2) - 1 in
            let sign := if (match l with X => true | Y => false end) && flipped g then - sign else sign in
            if (match l with X => negb (flipped g) | Y => flipped g end)
            then let y_pt := y1 p - sign * (extent (l, m) + axesdist g) in
                 Some (mkpos (xpos g) y_pt (xpos g + width g) y_pt (0, sign) gx)
            else let x_pt := x1 p - sign * (extent (l, m) + axesdist g) in
                 Some (mkpos x_pt (ypos g) x_pt (ypos g + height g) (sign, 0) gy)
        end
    end
  else None.
Definition xy_positioner (g : graph) := axis_positioner g (xvgridpath g) (yvgridpath g).

(** The check of the axis names, l.405-408: the rest of the name is digits (isdigit, for ASCII only) and not "1" *)
Definition isdigit (c : ascii) : bool := ((48 <=? nat_of_ascii c) && (nat_of_ascii c <=? 57))%nat.
Definition valid_name (s : string) : bool :=
  match list_ascii_of_string s with
  | c :: [] => (Ascii.eqb c "x" || Ascii.eqb c "y")%char
  | c :: r => (Ascii.eqb c "x" || Ascii.eqb c "y")%char && forallb isdigit r && negb (match r with [d] => Ascii.eqb d "1" | _ => false end)
  | [] => false
  end.
(** int(axisname[1:]), and 1 for the name without number *)
Definition name_number (s : string) : nat :=
  match list_ascii_of_string s with
  | _ :: [] => 1%nat
  | _ :: r => fold_left (fun n c => 10 * n + (nat_of_ascii c - 48))%nat r 0%nat
  | [] => 0%nat
  end.

(** axisatv, l.543-553: the translation of the painted axis *)
Definition axisatv (g : graph) (p : positioner) (v : R) : pt -> pt :=
  let t := if Req_EM_T (fst (fixtickdirection p)) 0 then (0, ypos g + v * height g - y1 p) else (xpos g + v * width g - x1 p, 0) in
  fun q => (fst q + fst t, snd q + snd t).

(** autokeygraphtrafo, l.519-541: the translation of the key graph; names are the axes of the graph in any order *)
Definition dependson (g : graph) (names : list (letter * nat)) : option nat :=
  fold_left (fun d a =>
    if (match fst a with X => flipped g | Y => negb (flipped g) end) then
      if (Nat.even (snd a) && negb (flipped g)) || (Nat.odd (snd a) && flipped g)
      then match d with None => Some (snd a) | Some m => if (m <? snd a)%nat then Some (snd a) else d end
      else d
    else d) names None.
Definition autokey_x (g : graph) (names : list (letter * nat)) (pos : letter -> nat -> option positioner) (extent : letter * nat -> R) : option R :=
  let l := if flipped g then X else Y in
  match dependson g names with
  | None => Some (xpos g + width g + axesdist g)
  | Some n => match pos l n with None => None | Some p => Some (x1 p + extent (l, n) + axesdist g) end
  end.

(** Methods of the anchored axis, axis.py l.618-652: tickpoint_pt converts, vtickpoint_pt does not; tickpoint gives lengths (the same
    numbers in points here); vtickpoint multiplies a tuple by a length, which is a TypeError (unit.py l.117-126 multiply the tuple by
    floats) *)
Definition axis_tickpoint_pt (conv : R -> R) (p : positioner) (x : R) : option pt := Some (vtickpoint_pt p (conv x)).
Definition axis_tickpoint (conv : R -> R) (p : positioner) (x : R) : option pt := Some (vtickpoint_pt p (conv x)).
Definition axis_vtickpoint_pt (conv : R -> R) (p : positioner) (v : R) : option pt := Some (vtickpoint_pt p v).
Definition axis_vtickpoint (conv : R -> R) (p : positioner) (v : R) : option pt := None.
(** l.387-388 and l.399-400: the methods of the graph *)
Definition graph_xvtickpoint_pt := axis_vtickpoint_pt.
Definition graph_xvtickpoint := axis_tickpoint.
Definition graph_yvtickpoint_pt := axis_vtickpoint_pt.
Definition graph_yvtickpoint := axis_vtickpoint.

(** graphx, l.633-686: directions, positions, and the grid paths, of which the one for y raises an exception *)
Inductive direction := Vertical | Horizontal.
Definition graphx (d : direction) (x y length size dist : R) : graph :=
  match d with Vertical => mkgraph x y size length dist true | Horizontal => mkgraph x y length size dist false end.
Definition graphx_vpos (g : graph) (vx : R) : pt := vpos g vx 0.5.
Definition graphx_vgeodesic (g : graph) (vx1 vx2 : R) : line := vgeodesic g vx1 0.5 vx2 0.5.
Definition graphx_vcap (g : graph) (coordinate : nat) (length vx : R) : option line :=
  if (coordinate =? 0)%nat then vcap g coordinate length vx 0.5 else None.
Definition graphx_positioner (g : graph) := axis_positioner g (xvgridpath g) (fun _ => None).
