(** Model of the graph style grid (pyx/graph/style.py, l.1665-1715), on top of the models of gridpos (GridModel.v) and of the lines in graphs (GraphLineModel.v).

    The data stored for a point is its position.  data12 and data21 hold the same data (GridModel.v), and each value of the grid has an entry,
    so that the lookups of l.1690 and l.1704 do not fail.  The selection of the attributes is not modelled, only whether they are None. *)
From Coq Require Import Reals Bool List.
From Verif Require Import GraphLineModel GridModel.
Import ListNotations.
Open Scope R_scope.

Section GridStyle.
  Variable P C : Type.
  Variable graphvpos_pt : vpos -> P.
  Variable epsilon : R.

  (** gridpos.drawpoint for all points, l.1632-1660 *)
  Definition gather (ps : list (point vpos C)) : grid vpos := fold_left (grid_point vpos C epsilon) ps (new_grid vpos).

  (** initpointstopath, addinvalid or addpoint for each value, donepointstopath: l.1691-1699 and l.1705-1713;
      addinvalid, l.621-624, does the same as addpoint without a position *)
  Definition grid_line (g : grid vpos) (keys : list (R * R)) : list (item P) :=
    donepointstopath P (fold_left (fun d k => addpoint P graphvpos_pt epsilon d (lookup k (data12 vpos g))) keys (initpointstopath P)).
  Definition nonempty (p : list (item P)) : bool := match p with [] => false | _ => true end.

  (** donedrawpoints, l.1683-1715: the paths which are stroked, None is the TypeError of canvas.stroke (pyx/canvas.py, l.388, list(None))
      when the attributes are None *)
  Definition grid_draw (gridlines1 gridlines2 attrs : bool) (ps : list (point vpos C)) : option (list (list (item P))) :=
    let g := gather ps in
    let vs1 := sorted (values1 vpos g) in
    let vs2 := sorted (values2 vpos g) in
    let rows := if gridlines1 then map (fun v2 => grid_line g (map (fun v1 => (v1, v2)) vs1)) vs2 else [] in
    let cols := if gridlines2 then map (fun v1 => grid_line g (map (fun v2 => (v1, v2)) vs2)) vs1 else [] in
    let paths := filter nonempty (rows ++ cols) in
    match paths with
    | [] => Some []
    | _ => if attrs then Some paths else None
    end.
End GridStyle.
