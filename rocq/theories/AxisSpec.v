(** Specification vocabulary for axes, independent of the model *)
From Coq Require Import Reals List.
Import ListNotations.
Open Scope R_scope.

(** the numbers occurring in some columns of data *)
Definition seen (columns : list (list (option R))) (v : R) : Prop := exists column, In column columns /\ In (Some v) column.
(** the lower limit of a range: the fixed one, or the least of the values, or nothing *)
Definition lower_limit (fixed : option R) (values : R -> Prop) (limit : option R) : Prop :=
  match fixed, limit with
  | Some m, _ => limit = Some m
  | None, Some m => values m /\ forall v, values v -> m <= v
  | None, None => forall v, ~ values v
  end.
Definition upper_limit (fixed : option R) (values : R -> Prop) (limit : option R) : Prop :=
  match fixed, limit with
  | Some m, _ => limit = Some m
  | None, Some m => values m /\ forall v, values v -> v <= m
  | None, None => forall v, ~ values v
  end.
(** the point dividing a range linearly and geometrically *)
Definition along (a b f : R) : R := a + f * (b - a).
Definition along_log (a b f : R) : R := a * Rpower (b / a) f.
(** the fraction seen from the other end *)
Definition turned (reverse : bool) (f : R) : R := if reverse then 1 - f else f.
(** the order in which an axis runs *)
Definition before (reverse : bool) (x y : R) : Prop := if reverse then y < x else x < y.

(** ** bar axes *)
Definition total (l : list R) : R := fold_right Rplus 0 l.
(** data of a bar axis: names with values, either may be missing *)
Definition bardatum := (option nat * option R)%type.
Definition names_in (data : list bardatum) : list nat := flat_map (fun v => match fst v with Some n => [n] | None => [] end) data.
(** the different members of a list in the order of their first occurrence *)
Definition firsts (l : list nat) : list nat := fold_left (fun acc n => if existsb (Nat.eqb n) acc then acc else acc ++ [n]) l [].
(** the numbers given with a name *)
Definition given (columns : list (list bardatum)) (n : nat) (v : R) : Prop := exists column, In column columns /\ In (Some n, Some v) column.
