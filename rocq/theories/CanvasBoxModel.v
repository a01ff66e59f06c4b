(** Model of the bounding boxes of canvases, pyx/canvas.py l.176-192 and the accumulation of boxes
    while writing output (l.205-212, 231-252, 274-281).

    Items other than canvases are given by their boxes; the path of a clip by the box of its points
    (a path of lines; for curves its box is BezierModel/ArcModel/NormsubModel). *)
From Coq Require Import Reals List.
From Verif Require Import TrafoModel BboxModel CanvasModel.
Import ListNotations.
Open Scope R_scope.

Inductive boxed := Leaf (b : bbox) | Group (c : canvas) (items : list boxed).
(** the box of the points of a path: includepoint_pt over the points *)
Definition path_box (p : path) : bbox := fold_left includepoint_pt p empty.
(** l.189-192 and l.209-211 *)
Definition finish (c : canvas) (b : bbox) : bbox :=
  let b := transform b (trafo_of (c_trafo c)) in
  match c_clip c with Some p => bimul b (path_box p) | None => b end.
(** bbox, l.176-192 *)
Fixpoint canvas_bbox (t : boxed) : bbox :=
  match t with
  | Leaf b => b
  | Group c l => finish c (fold_left (fun acc i => biadd acc (canvas_bbox i)) l empty)
  end.
(** The box handed on while writing: a leaf adds its box to the box given, a canvas with items adds
    the box of what it wrote. *)
Fixpoint process_bbox (t : boxed) (b : bbox) : bbox :=
  match t with
  | Leaf b' => biadd b b'
  | Group c l => match l with
                 | [] => b
                 | _ => biadd b (finish c (fold_left (fun acc i => process_bbox i acc) l empty))
                 end
  end.
