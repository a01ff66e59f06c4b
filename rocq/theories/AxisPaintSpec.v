(** What the paint methods of axes should do, independent of the model's helpers. *)
From Coq Require Import Reals List Bool.
From Verif Require Import BoxModel BoxAlign AxisPaintModel.
Import ListNotations.
Open Scope R_scope.

(** how far a point is away from the axis point c, against the direction d of the ticks *)
Definition outward (c d q : point) : R := (px c - px q) * px d + (py c - py q) * py d.
Definition is_unit (d : point) : Prop := px d * px d + py d * py d = 1.
(** the point with a distance from c, straight outward *)
Definition outside (c d : point) (r : R) (q : point) : Prop := px q = px c - r * px d /\ py q = py c - r * py d.
(** a text typeset at c: a convex box, not too small, no edge almost parallel or orthogonal to d *)
Definition typeset (c d : point) (b : polygon) : Prop :=
  convex (corners b) /\ center b = c /\ distinct (corners b) (px d) (py d) /\ distinct (corners b) (- px d) (- py d).
(** the ticks with labels *)
Definition labelled (l : list mark) : list (mark * polygon) :=
  flat_map (fun t => match label t with Some b => [(t, b)] | None => [] end) l.
(** the box is moved outward only *)
Definition moved (d v : point) (b b' : polygon) : Prop :=
  (exists k, v = (k * px d, k * py d)) /\ corners b' = map (translation v) (corners b) /\ center b' = translation v (center b).
(** all points of a box are at least at r, and one is at r *)
Definition nearest (c d : point) (r : R) (b : polygon) : Prop :=
  (forall q, In q (corners b) -> r <= outward c d q) /\ exists q, In q (corners b) /\ outward c d q = r.
(** all labels need the same shift *)
Definition level (l : list mark) : Prop :=
  exists m, forall t b, In (t, b) (labelled l) -> nearest (mpoint t) (mdir t) m b.
(** a tick at t has lengths i and o *)
Definition has_tick (p : regular) (l : list mark) (t : mark) (i o : R) : Prop :=
  exists k, ticklevel t = Some k /\ tickattrs p k (maxticklevel l) = true /\
  (innerlength p <> Without \/ outerlength p <> Without) /\
  i = match innerlength p with Without => 0 | Fixed r => r | Series a f => a * f ^ k end /\
  o = match outerlength p with Without => 0 | Fixed r => r | Series a f => a * f ^ k end.
