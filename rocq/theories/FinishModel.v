(** * Model of how the content of a page is written: pyx/document.py l.71-136 (page._process), pyx/canvas.py l.174-285 (bbox, processPS,
    processPDF and processSVG of a canvas), pyx/graph/graph.py l.183-194 (the same methods of a graph) *)

From Coq Require Import Bool List.
Import ListNotations.

(** An item of a canvas: a leaf (a path, an image, a text, ... with its identity), a canvas with its items, or a graph.  A graph has the
    items it contains already, and those which finish adds (which depend on the graph only, and which may be graphs themselves); it is
    finished or not (graph.py l.304-308; a second call of finish does nothing, by graph_steps_once of PlotProps3.v).  Items are trees: an item
    inserted at several places is not modelled. *)
Inductive item :=
| Leaf (id : nat)
| Canvas (items : list item)
| Graph (finished : bool) (items : list item) (added : list item).

(** What a call of bbox leaves behind: canvas.bbox (canvas.py l.174-192) calls bbox of all items, graph.bbox (graph.py l.183-185) finishes
    the graph first.  The bounding box itself is in CanvasModel.v. *)
Fixpoint bbox_after (i : item) : item :=
  match i with
  | Leaf n => Leaf n
  | Canvas l => Canvas (map bbox_after l)
  | Graph true l a => Graph true (map bbox_after l) a
  | Graph false l a => Graph true (map bbox_after l ++ map bbox_after a) a
  end.

(** The leaves which are written, in their order: canvas.processPS and processPDF (canvas.py l.194-255) write all items, and those of a graph
    (graph.py l.188-194) finish it first *)
Fixpoint process_ps (i : item) : list nat :=
  match i with
  | Leaf n => [n]
  | Canvas l => flat_map process_ps l
  | Graph true l _ => flat_map process_ps l
  | Graph false l a => flat_map process_ps l ++ flat_map process_ps a
  end.
Definition process_pdf : item -> list nat := process_ps.
(** canvas.processSVG (canvas.py l.257-285); graphs have no processSVG of their own *)
Fixpoint process_svg (i : item) : list nat :=
  match i with
  | Leaf n => [n]
  | Canvas l => flat_map process_svg l
  | Graph _ l _ => flat_map process_svg l
  end.

Inductive format := PS | PDF | SVG.
Definition process (f : format) : item -> list nat := match f with PS => process_ps | PDF => process_pdf | SVG => process_svg end.
(** page._process, document.py l.71-128: bbox is called if the page has no bbox; the canvas may be inserted into a transformed canvas *)
Definition page_output (pagebbox transformed : bool) (f : format) (canvas : item) : list nat :=
  let canvas := if pagebbox then canvas else bbox_after canvas in
  process f (if transformed then Canvas [canvas] else canvas).
