(** Notions for paths of several subpaths. *)
From Coq Require Import Reals List.
From Verif Require Import CurveModel CurveSpec NormsubSpec.
Import ListNotations.
Open Scope R_scope.

Local Notation pt := (R * R)%type.
(** the length of a path of lines: those of its subpaths *)
Definition path_length (np : list (list (pt * pt))) : R := total_length (concat np).
(** x is the arc length from the begin of the path to the parameter t of its subpath k *)
Definition path_length_at (np : list (list (pt * pt))) (p : nat * R) (x : R) : Prop :=
  exists ls y, nth_error np (fst p) = Some ls /\ arc_length_at ls (snd p) y /\ x = path_length (firstn (fst p) np) + y.
(** all subpaths have lines of positive length, and there is a subpath *)
Definition proper_lines (np : list (list (pt * pt))) : Prop :=
  np <> [] /\ forall ls, In ls np -> ls <> [] /\ forall p q, In (p, q) ls -> 0 < distance p q.
(** parameters on the path: a parameter of a subpath is within the subpath and not at its
    end, except that the first and the last subpath may be left at the begin and the end of
    the path *)
Definition on_subpath (np : list (list (pt * pt))) (p : nat * R) : Prop :=
  exists ls, nth_error np (fst p) = Some ls /\ (fst p = 0%nat \/ 0 <= snd p) /\ (S (fst p) = length np \/ snd p < INR (length ls)).
(** the parameter p comes before q on the path *)
Definition before (p q : nat * R) : Prop := (fst p < fst q)%nat \/ (fst p = fst q /\ snd p < snd q).
