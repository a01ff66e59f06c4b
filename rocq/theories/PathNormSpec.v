(** What a normpath of a path should contain, and what a path should contain after a history
    of actions, independent of how pyx converts paths and of its cache. *)
From Coq Require Import Reals Bool List.
From Verif Require Import CurveModel CurveSpec NormsubModel NormsubSpec NormpathModel PathModel PathSpec PathNormModel.
Import ListNotations.
Open Scope R_scope.

Local Notation pt := (R * R)%type.

(** the lines and curves of a subpath that is drawn, each from where the one before ended *)
Definition seg_item (p : pt) (s : seg) : item :=
  match s with SegLine q => Line p q | SegCurve p1 p2 p3 => Curve p p1 p2 p3 end.
Fixpoint seg_items (p : pt) (l : list seg) : list item :=
  match l with
  | [] => []
  | s :: l' => seg_item p s :: seg_items (seg_end s) l'
  end.
Definition end_of (p : pt) (l : list seg) : pt := last (map seg_end l) p.
(** with the line closing it, unless it already ends where it began *)
Definition drawn_items (d : drawn) (l : list item) : Prop :=
  (shut d = false /\ l = seg_items (start d) (segs d)) \/
  (shut d = true /\ end_of (start d) (segs d) = start d /\ l = seg_items (start d) (segs d)) \/
  (shut d = true /\ end_of (start d) (segs d) <> start d /\
   l = seg_items (start d) (segs d) ++ [Line (end_of (start d) (segs d)) (start d)]).
(** all lines and curves of a subpath have at least the speed e everywhere (lines: the
    length e) *)
Definition regular (e : R) (d : drawn) : Prop := forall l, drawn_items d l -> Forall (speed_at_least e) l.

(** the subpath of a normpath showing what is drawn *)
Definition shows (e : R) (d : drawn) (s : nsp) : Prop :=
  drawn_items d (items s) /\ closed s = shut d /\ epsilon s = Some e /\ nsp_atbegin s = Some (start d) /\
  nsp_atend s = Some (if shut d then start d else end_of (start d) (segs d)).

(** subpaths that are kept when a normpath is made to a path and back *)
Definition clean (e : R) (s : nsp) : Prop :=
  items s <> [] /\ epsilon s = Some e /\ skipped s = None /\ Forall (speed_at_least e) (items s) /\
  exists b q, connected b (items s) q /\ (closed s = true -> q = b).

(** The items of a path after an action when there is no cache: [conv] is the conversion of
    items to a normpath. *)
Definition plain (conv : list pathitem -> res normpath) (fuel : nat) (l : list pathitem) (a : action) : list pathitem :=
  match a with
  | Append i => l ++ [i]
  | Extend l' | Iadd l' => l ++ l'
  | Join other =>
      match conv l with
      | Ok np => match path_join fuel np other with Ok np' => np_pathitems np' | _ => l end
      | _ => l
      end
  | _ => l
  end.
(** actions that neither change the default epsilon nor modify a normpath obtained *)
Definition harmless (a : action) : Prop := match a with SetEpsilon _ | ModifyNormpath _ => False | _ => True end.
(** the points of a curve after its first one *)
Definition triple (i : item) : pt * pt * pt := match i with Line _ p => (p, p, p) | Curve _ p1 p2 p3 => (p1, p2, p3) end.
