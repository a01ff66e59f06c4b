(** * Model of three dimensional graphs: pyx/graph/graph.py l.687-764 (the projectors), l.765-1115 (positions, the visibility of
    the planes, axes)

    Floats are reals.  A ZeroDivisionError is None.  Lengths are in points. *)

From Coq Require Import Reals Bool List.
Import ListNotations.
Open Scope R_scope.

Definition ltb (a b : R) : bool := if Rlt_dec a b then true else false.
Definition vec := (R * R * R)%type.

(** central.__init__ and parallel.__init__, l.691-702, 740-750, with the angles after the multiplication with anglefactor *)
Inductive projector := Central (distance phi theta : R) | Parallel (phi theta : R).
Definition new_central (distance phi theta anglefactor : R) := Central distance (phi * anglefactor) (theta * anglefactor).
Definition new_parallel (phi theta anglefactor : R) := Parallel (phi * anglefactor) (theta * anglefactor).
(** self.a, self.b, self.eye and self.c *)
Definition attr_a (phi : R) : vec := (- sin phi, cos phi, 0).
Definition attr_b (phi theta : R) : vec := (- cos phi * sin theta, - sin phi * sin theta, cos theta).
Definition attr_eye (distance phi theta : R) : vec :=
  (distance * cos phi * cos theta, distance * sin phi * cos theta, distance * sin theta).
Definition attr_c (phi theta : R) : vec := (- cos phi * cos theta, - sin phi * cos theta, - sin theta).

(** point, l.704-723 and l.752-753 *)
Definition point (p : projector) (v : vec) : option (R * R) :=
  let '(x, y, z) := v in
  match p with
  | Central distance phi theta =>
      let '(a0, a1, a2) := attr_a phi in let '(b0, b1, b2) := attr_b phi theta in let '(e0, e1, e2) := attr_eye distance phi theta in
      let d0 := a0 * b1 * (z - e2) + a2 * b0 * (y - e1) + a1 * b2 * (x - e0) - a2 * b1 * (x - e0) - a0 * b2 * (y - e1) - a1 * b0 * (z - e2) in
      let da := e0 * b1 * (z - e2) + e2 * b0 * (y - e1) + e1 * b2 * (x - e0) - e2 * b1 * (x - e0) - e0 * b2 * (y - e1) - e1 * b0 * (z - e2) in
      let db := a0 * e1 * (z - e2) + a2 * e0 * (y - e1) + a1 * e2 * (x - e0) - a2 * e1 * (x - e0) - a0 * e2 * (y - e1) - a1 * e0 * (z - e2) in
      if Req_EM_T d0 0 then None else Some (da / d0, db / d0)
  | Parallel phi theta =>
      let '(a0, a1, a2) := attr_a phi in let '(b0, b1, b2) := attr_b phi theta in
      Some (a0 * x + a1 * y + a2 * z, b0 * x + b1 * y + b2 * z)
  end.

(** zindex, l.725-726 and l.755-756 *)
Definition zindex (p : projector) (v : vec) : R :=
  let '(x, y, z) := v in
  match p with
  | Central distance phi theta =>
      let '(e0, e1, e2) := attr_eye distance phi theta in
      sqrt ((x - e0) * (x - e0) + (y - e1) * (y - e1) + (z - e2) * (z - e2)) - distance
  | Parallel phi theta => let '(c0, c1, c2) := attr_c phi theta in c0 * x + c1 * y + c2 * z
  end.

Definition divide (a b : R) : option R := if Req_EM_T b 0 then None else Some (a / b).
(** angle, l.728-735 and l.758-762 *)
Definition angle (p : projector) (v1 v2 v3 : vec) : option R :=
  let '(x1, y1, z1) := v1 in let '(x2, y2, z2) := v2 in let '(x3, y3, z3) := v3 in
  let nx := (y2 - y1) * (z3 - z1) - (z2 - z1) * (y3 - y1) in
  let ny := (z2 - z1) * (x3 - x1) - (x2 - x1) * (z3 - z1) in
  let nz := (x2 - x1) * (y3 - y1) - (y2 - y1) * (x3 - x1) in
  match p with
  | Central distance phi theta =>
      let '(e0, e1, e2) := attr_eye distance phi theta in
      let sx := x1 - e0 in let sy := y1 - e1 in let sz := z1 - e2 in
      match divide (sx * nx + sy * ny + sz * nz) (sqrt (nx * nx + ny * ny + nz * nz)) with
      | Some q => divide q (sqrt (sx * sx + sy * sy + sz * sz))
      | None => None
      end
  | Parallel phi theta =>
      let '(c0, c1, c2) := attr_c phi theta in divide (c0 * nx + c1 * ny + c2 * nz) (sqrt (nx * nx + ny * ny + nz * nz))
  end.

(** graphxyz, l.765-791 *)
Record graphxyz := mkgraph { xpos_pt : R; ypos_pt : R; size_pt : R; xscale : R; yscale : R; zscale : R; proj : projector }.

Section Graph.
  Variable g : graphxyz.

  (** the arguments of the methods of the projector in vpos_pt, vzindex and vangle *)
  Definition position (v : vec) : vec :=
    let '(vx, vy, vz) := v in (2 * xscale g * (vx - 0.5), 2 * yscale g * (vy - 0.5), 2 * zscale g * (vz - 0.5)).
  (** vpos_pt, l.909-913 *)
  Definition vpos_pt (v : vec) : option (R * R) :=
    match point (proj g) (position v) with
    | Some (x, y) => Some (xpos_pt g + x * size_pt g, ypos_pt g + y * size_pt g)
    | None => None
    end.
  (** zindexscale and vzindex, l.790, 921-924 *)
  Definition zindexscale : R := sqrt (xscale g * xscale g + yscale g * yscale g + zscale g * zscale g).
  Definition vzindex (v : vec) : option R := divide (zindex (proj g) (position v)) zindexscale.
  (** vangle, l.926-935 *)
  Definition vangle (v1 v2 v3 : vec) : option R := angle (proj g) (position v1) (position v2) (position v3).
  (** vgeodesic, l.937-939: the ends of the line *)
  Definition vgeodesic (v1 v2 : vec) : option ((R * R) * (R * R)) :=
    match vpos_pt v1, vpos_pt v2 with Some p, Some q => Some (p, q) | _, _ => None end.

  (** xorder and yorder, l.788-789 *)
  Definition xorder : bool := ltb (zindex (proj g) (0, 1, 0)) (zindex (proj g) (0, -1, 0)).
  Definition yorder : bool := ltb (zindex (proj g) (1, 0, 0)) (zindex (proj g) (-1, 0, 0)).
  (** pz0show ... px1show, l.798-803; None is the ZeroDivisionError in the constructor *)
  Inductive plane := PX0 | PX1 | PY0 | PY1 | PZ0 | PZ1.
  Definition corners (p : plane) : vec * vec * vec :=
    match p with
    | PZ0 => ((0, 0, 0), (1, 0, 0), (1, 1, 0))
    | PZ1 => ((0, 0, 1), (0, 1, 1), (1, 1, 1))
    | PY0 => ((0, 0, 0), (0, 0, 1), (1, 0, 1))
    | PY1 => ((0, 1, 0), (1, 1, 0), (1, 1, 1))
    | PX0 => ((0, 0, 0), (0, 1, 0), (0, 1, 1))
    | PX1 => ((1, 0, 0), (1, 0, 1), (1, 1, 1))
    end.
  Definition show (p : plane) : option bool :=
    let '(a, b, c) := corners p in option_map (fun angle => ltb 0 angle) (vangle a b c).

  (** the names of the axes: x, x2, x3, x4 and so on; others are a NotImplementedError *)
  Inductive number := N1 | N2 | N3 | N4.
  Inductive axisname := AX (n : number) | AY (n : number) | AZ (n : number).
  Definition coordinate (b : bool) : R := if b then 1 else 0.

  (** the positions, tick directions and hidden attributes of doaxispositioner, l.1019-1114; at is xy12axesatv.  The tick
      points are given by the position in the graph, the tick directions by the two points of vtickdirection. *)
  Definition axis_point (at_ : R) (n : axisname) (v : R) : vec :=
    match n with
    | AX N1 => (v, coordinate xorder, at_)
    | AX N2 => (v, 1 - coordinate xorder, at_)
    | AX N3 => (v, coordinate xorder, 1)
    | AX N4 => (v, 1 - coordinate xorder, 1)
    | AY N1 => (coordinate yorder, v, at_)
    | AY N2 => (1 - coordinate yorder, v, at_)
    | AY N3 => (coordinate yorder, v, 1)
    | AY N4 => (1 - coordinate yorder, v, 1)
    | AZ N1 => (0, 0, v)
    | AZ N2 => (1, 0, v)
    | AZ N3 => (0, 1, v)
    | AZ N4 => (1, 1, v)
    end.
  Definition axis_direction (at_ : R) (n : axisname) (v : R) : vec * vec :=
    match n with
    | AX N1 => ((v, coordinate xorder, 0), (v, 1 - coordinate xorder, at_))
    | AX N2 => ((v, 1 - coordinate xorder, 0), (v, coordinate xorder, at_))
    | AX N3 => ((v, coordinate xorder, 1), (v, 1 - coordinate xorder, 1))
    | AX N4 => ((v, 1 - coordinate xorder, 1), (v, coordinate xorder, 1))
    | AY N1 => ((coordinate yorder, v, 0), (1 - coordinate yorder, v, at_))
    | AY N2 => ((1 - coordinate yorder, v, 0), (coordinate yorder, v, at_))
    | AY N3 => ((coordinate yorder, v, 1), (1 - coordinate yorder, v, 1))
    | AY N4 => ((1 - coordinate yorder, v, 1), (coordinate yorder, v, 1))
    | AZ N1 => ((0, 0, v), (1, 1, v))
    | AZ N2 => ((1, 0, v), (0, 1, v))
    | AZ N3 => ((0, 1, v), (1, 0, v))
    | AZ N4 => ((1, 1, v), (0, 0, v))
    end.
  Definition hidden (n : axisname) : option bool :=
    let neither p q := match show p, show q with Some a, Some b => Some (negb a && negb b) | _, _ => None end in
    match n with
    | AX N1 => if xorder then neither PY1 PZ0 else neither PY0 PZ0
    | AX N2 => if xorder then neither PY0 PZ0 else neither PY1 PZ0
    | AX N3 => if xorder then neither PY1 PZ1 else neither PY0 PZ1
    | AX N4 => if xorder then neither PY0 PZ1 else neither PY1 PZ1
    | AY N1 => if yorder then neither PX1 PZ0 else neither PX0 PZ0
    | AY N2 => if yorder then neither PX0 PZ0 else neither PX1 PZ0
    | AY N3 => if yorder then neither PX1 PZ1 else neither PX0 PZ1
    | AY N4 => if yorder then neither PX0 PZ1 else neither PX1 PZ1
    | AZ N1 => neither PX0 PY0
    | AZ N2 => neither PX1 PY0
    | AZ N3 => neither PX0 PY1
    | AZ N4 => neither PX1 PY1
    end.
  (** vtickdirection, l.981-987 *)
  Definition vtickdirection (d : vec * vec) : option (R * R) :=
    match vpos_pt (fst d), vpos_pt (snd d) with
    | Some (x1, y1), Some (x2, y2) =>
        let dx := x2 - x1 in let dy := y2 - y1 in
        let norm := sqrt (dx * dx + dy * dy) in
        match divide dx norm, divide dy norm with Some a, Some b => Some (a, b) | _, _ => None end
    | _, _ => None
    end.
End Graph.
