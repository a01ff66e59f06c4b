(** * Model of the keys of graphs: pyx/graph/key.py l.28-122, pyx/graph/graph.py l.605-629 (its place in the graph) and pyx/box.py
    l.256-264, 269-270 (aligning several boxes equally)

    Floats are reals and lengths are in points.  The titles are boxes (polygons as in BoxModel), the texts themselves, the drawing of the
    symbols (plotitem.key_pt) and the frame (l.117-121) are not modelled. *)

From Coq Require Import Reals Bool Arith Ascii String List.
From Verif Require Import BoxModel.
Import ListNotations.
Open Scope R_scope.

(** The positions by name, l.48-63: None is the ValueError *)
Definition positions : list (list string * (R * R)) :=
  [(["tr"; "rt"], (1, 1)); (["tc"; "ct"], (0.5, 1)); (["tl"; "lt"], (0, 1));
   (["mr"; "rm"], (1, 0.5)); (["mc"; "cm"], (0.5, 0.5)); (["ml"; "lm"], (0, 0.5));
   (["br"; "rb"], (1, 0)); (["bc"; "cb"], (0.5, 0)); (["bl"; "lb"], (0, 0))]%string.
Definition key_position (pos : string) : option (R * R) :=
  option_map snd (find (fun e => existsb (String.eqb pos) (fst e)) positions).

(** parentchildalign, graph.py l.614-617: the translation of the key *)
Definition parentchildalign (pmin pmax cmin cmax pos dist inside : R) : R :=
  let ppos := pmin + 0.5 * (cmax - cmin) + dist + pos * (pmax - pmin - cmax + cmin - 2 * dist) in
  let cpos := 0.5 * (cmin + cmax) + (1 - inside) * (1 - 2 * pos) * (cmax - cmin + 2 * dist) in
  ppos - cpos.

(** paint, key.py l.104-116: the items of the columns; the loop with the number of items as an upper limit for the number of passes *)
Fixpoint column_loop {A} (fuel k : nat) (items : list A) : list (list A) :=
  match fuel, items with
  | S f, _ :: _ => firstn k items :: column_loop f k (skipn k items)
  | _, _ => []
  end.
Definition key_columns {A} (columns : nat) (items : list A) : list (list A) :=
  column_loop (length items) ((length items + columns - 1) / columns) items.
(** the translations of the columns: x_pt is increased by the width of the column and columndist; llx and urx of the columns *)
Fixpoint column_positions (columndist x : R) (cols : list (R * R)) : list R :=
  match cols with [] => [] | (llx, urx) :: r => x :: column_positions columndist (x + (urx - llx) + columndist) r end.

(** genericalignequal_pt, box.py l.256-264, with linealignvector_pt *)
Definition equal_vector (ps : list polygon) (a dx dy : R) : option point :=
  fold_left (fun vec p => let v := linealignvector p a dx dy in
    match vec with None => Some v | Some u => if ltb (px u * dx + py u * dy) (px v * dx + py v * dy) then Some v else vec end) ps None.
Definition linealignequal (ps : list polygon) (a dx dy : R) : list polygon :=
  match equal_vector ps a dx dy with None => [] | Some v => map (transform (translation v) false) ps end.

(** paintcolumn, key.py l.78-102, after the creation of the titles: the titles and the positions (lower edges) of the symbols *)
Definition paintcolumn (titles : list polygon) (dist symbolwidth symbolheight symbolspace : R) : list polygon * list R :=
  let '(tiled, dy) := tile titles dist 0 (-1) in
  let aligned := linealignequal tiled (symbolwidth + symbolspace) 1 0 in
  let y := - 0.5 * symbolheight + py (center (hd (new_polygon [] None) aligned)) in
  (aligned, map (fun k => y - INR k * dy) (seq 0 (length titles))).
