(** The points of a box. *)
From Coq Require Import Reals List.
From Verif Require Import BboxModel.
Open Scope R_scope.

(** the point is in the box (borders included) *)
Definition inside (b : bbox) (p : R * R) : Prop :=
  exists l, llx b = Some l /\ l <= fst p <= urx b /\ lly b <= snd p <= ury b.
Definition within (a b : bbox) : Prop := forall p, inside a p -> inside b p.
(** empty, or the upper right corner is not below or left of the lower left one *)
Definition proper (b : bbox) : Prop := forall l, llx b = Some l -> l <= urx b /\ lly b <= ury b.
(** [b] is the smallest box containing all points of the set *)
Definition smallest (b : bbox) (s : R * R -> Prop) : Prop :=
  proper b /\ (forall p, s p -> inside b p) /\ forall c, (forall p, s p -> inside c p) -> within b c.
(** same box, ignoring the meaningless attributes of empty boxes *)
Definition same (a b : bbox) : Prop :=
  llx a = llx b /\ (llx a <> None -> lly a = lly b /\ urx a = urx b /\ ury a = ury b).
