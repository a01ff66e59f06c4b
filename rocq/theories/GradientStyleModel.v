(** Model of the graph style gradient (pyx/graph/style.py, l.2056-2118) drawn in a graphx (pyx/graph/graph.py, l.634-662), with real numbers for floats.
    Not modelled: the bytes of the colors (to8bitbytes, see the color models), the image mode and the insertion into the layer filldata. *)
From Coq Require Import Reals List Lra.
From Verif Require Import TrafoModel.
Import ListNotations.
Open Scope R_scope.

(** graphx, graph.py l.636-653: direction, position, width and height in points.  For the direction vertical the graph is flipped. *)
Record gx := mkgx { horizontal : bool; gxpos : R; gypos : R; gwidth : R; gheight : R }.

(** graphx.vpos_pt, graph.py l.658-659, by graphxy.vpos_pt, l.453-457, with the second coordinate 0.5 *)
Definition vpos_pt (g : gx) (v : R) : R * R :=
  let '(vx, vy) := if horizontal g then (v, / 2) else (/ 2, v) in
  (gxpos g + vx * gwidth g, gypos g + vy * gheight g).

(** the argument of getcolor for each pixel, style.py l.2085-2087 *)
Definition color_params (n : nat) : list R := map (fun i => INR i * 1 / INR n) (seq 0 n).

(** donedrawpoints, style.py l.2079-2118: the clipping rectangle (x, y, width, height), the transformation of the unit square of the bitmap,
    and the arguments of getcolor; None is the ZeroDivisionError of l.2103 and l.2107 for the resolution 1 *)
Definition gradient_draw (g : gx) (n : nat) : option ((R * R * R * R) * trafo * list R) :=
  let '(llx, lly) := vpos_pt g 0 in
  let '(urx, ury) := vpos_pt g 1 in
  let '(llx, lly, urx, ury) :=
    if horizontal g then (llx, lly - / 2 * gheight g, urx, ury + / 2 * gheight g)
    else (llx - / 2 * gwidth g, lly, urx + / 2 * gwidth g, ury) in
  let clip := (llx, lly, urx - llx, ury - lly) in
  if Nat.eqb n 1 then None else
  let '(llx', lly', urx', ury') :=
    if horizontal g then
      let add := (urx - llx) * / 2 / (INR n - 1) in (llx - add, lly, urx + add, ury)
    else
      let add := (ury - lly) * / 2 / (INR n - 1) in (llx, lly - add, urx, ury + add) in
  let t := if horizontal g then mktrafo (urx' - llx') 0 0 (ury' - lly') llx' lly'
           else mktrafo 0 (urx' - llx') (ury' - lly') 0 llx' lly' in
  Some (clip, t, color_params n).
