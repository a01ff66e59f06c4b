(** Meaning of the path operators of PostScript, PDF and SVG (without arcs), and statements
    about paths, independent of pyx. *)
From Coq Require Import Reals Bool List.
From Verif Require Import PathModel.
Import ListNotations.
Open Scope R_scope.

Local Notation pt := (R * R)%type.

(** What is drawn: subpaths with a start, pieces and whether they are closed. *)
Inductive seg := SegLine (p : pt) | SegCurve (p1 p2 p3 : pt).
Record drawn := mkdrawn { start : pt; segs : list seg; shut : bool }.
Definition seg_end (s : seg) : pt := match s with SegLine p => p | SegCurve _ _ p => p end.

(** The state of an interpreter: the finished subpaths, the subpath under construction and
    the current point when no subpath is under construction, i.e. after closing one. *)
Inductive pen := NoPoint | At (p : pt) | Drawing (p : pt) (l : list seg).
Record gstate := mkgstate { finished : list drawn; now : pen }.
Definition point_of (n : pen) : option pt :=
  match n with
  | NoPoint => None
  | At p => Some p
  | Drawing p l => Some (last (map seg_end l) p)
  end.
Definition ended (g : gstate) : list drawn :=
  finished g ++ match now g with Drawing p l => [mkdrawn p l false] | _ => [] end.

(** Adding a piece: after closing, a new subpath starts at the current point (PostScript
    Language Reference, closepath; PDF reference, h; SVG, Z). *)
Definition add_seg (g : gstate) (s : seg) : option gstate :=
  match now g with
  | NoPoint => None
  | At p => Some (mkgstate (finished g) (Drawing p [s]))
  | Drawing p l => Some (mkgstate (finished g) (Drawing p (l ++ [s])))
  end.
Definition move (g : gstate) (p : pt) : gstate := mkgstate (ended g) (Drawing p []).
Definition relative {A} (g : gstate) (f : (pt -> pt) -> option A) : option A :=
  match point_of (now g) with Some q => f (fun d => (fst q + fst d, snd q + snd d)) | None => None end.
Definition obey (g : gstate) (o : op) : option gstate :=
  match o with
  | Omove p => Some (move g p)
  | Ormove d => relative g (fun q => Some (move g (q d)))
  | Oline p => add_seg g (SegLine p)
  | Orline d => relative g (fun q => add_seg g (SegLine (q d)))
  | Ocurve p1 p2 p3 => add_seg g (SegCurve p1 p2 p3)
  | Orcurve d1 d2 d3 => relative g (fun q => add_seg g (SegCurve (q d1) (q d2) (q d3)))
  | Oclose =>
      match now g with
      | Drawing p l => Some (mkgstate (finished g ++ [mkdrawn p l true]) (At p))
      | _ => Some g
      end
  | _ => None
  end.
Fixpoint obey_all (g : gstate) (l : list op) : option gstate :=
  match l with
  | [] => Some g
  | o :: l' => match obey g o with Some g' => obey_all g' l' | None => None end
  end.

(** a subpath of a mere moveto draws nothing *)
Definition visible (d : drawn) : bool := shut d || match segs d with [] => false | _ => true end.
Definition interpret (l : list op) : option (list drawn) :=
  match obey_all (mkgstate [] NoPoint) l with
  | Some g => Some (filter visible (ended g))
  | None => None
  end.

(** The picture upside down. *)
Definition mirror_pt (p : pt) : pt := (fst p, - snd p).
Definition mirror_seg (s : seg) : seg :=
  match s with
  | SegLine p => SegLine (mirror_pt p)
  | SegCurve p1 p2 p3 => SegCurve (mirror_pt p1) (mirror_pt p2) (mirror_pt p3)
  end.
Definition mirror (d : drawn) : drawn := mkdrawn (mirror_pt (start d)) (map mirror_seg (segs d)) (shut d).

(** Items other than arcs. *)
Definition straight (i : pathitem) : bool :=
  match i with Arc _ _ _ _ _ | Arcn _ _ _ _ _ | Arct _ _ _ => false | _ => true end.

(** Kinds of items: those starting a subpath, those drawing something, closepath; an empty
    list of points is none of them. *)
Inductive kind := Moves | Draws | Closes | Nothing.
Definition kind_of (i : pathitem) : kind :=
  match i with
  | Closepath => Closes
  | Moveto _ | Rmoveto _ => Moves
  | Multilineto [] | Multicurveto [] => Nothing
  | _ => Draws
  end.
(** [calm prev l]: in the list l after an item of kind prev, a closepath follows upon an
    item that draws something, and is followed by a move. *)
Fixpoint calm (prev : kind) (l : list pathitem) : bool :=
  match l with
  | [] => true
  | i :: l' =>
      match kind_of i with
      | Nothing => calm prev l'
      | Moves => calm Moves l'
      | Draws => match prev with Closes => false | _ => calm Draws l' end
      | Closes => match prev with Draws => calm Closes l' | _ => false end
      end
  end.
